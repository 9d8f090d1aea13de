(** Proofs about the array functions of memory_detail.h. *)
From Verif Require Import Base MemoryModel MemorySpec MemoryProofs.

(** all blocks have been made by the array functions: what is registered is what is allocated *)
Definition arep (s : mem) (b : book) : Prop := srep s b /\ registered b = live b.
Lemma arep0 : arep mem0 book0.
Proof. split; [apply srep0|reflexivity]. Qed.
Lemma arep_bytes s b f : arep s b -> arep (set_bytes s f) b.
Proof. intros [H1 H2]. split; [apply srep_bytes; exact H1|exact H2]. Qed.
Lemma forget_elem l p t x : x ∈ forget l p t <-> x ∈ l /\ ~ (x.1.1 = p /\ x.2 = t).
Proof. unfold forget. rewrite elem_of_list_filter. tauto. Qed.
Lemma is_known_true l p t : known l p t -> is_known l p t = true.
Proof. intros H. rewrite is_known_spec. apply bool_decide_eq_true_2, of_type_keys. exact H. Qed.
Lemma is_known_false l p t : ~ known l p t -> is_known l p t = false.
Proof. intros H. rewrite is_known_spec. apply bool_decide_eq_false_2. rewrite of_type_keys. exact H. Qed.
Lemma known_dec l p t : known l p t \/ ~ known l p t.
Proof. rewrite <- of_type_keys. destruct (decide (p ∈ (of_type t l).*1)); auto. Qed.

Section arrays.
  Context (malloc : nat -> list (Z * Z) -> Z -> Z) (Hm : malloc_ok malloc) (Hnf : never_fails malloc).
  Context (dc : bool) (ord : nat -> list nat) (Hord : forall n, ord n ≡ₚ seq 0 n).

  Lemma known_pos s b p t : srep s b -> known (live b) p t -> 0 < p.
  Proof. intros R [n H]. pose proof (live_heap _ _ _ _ _ R H) as Hh. pose proof (hr_pos _ (sr_hrep _ _ R) _ _ Hh). lia. Qed.

  Section sized.
  Context (sz : Z) (Hsz : 0 < sz).

  Lemma safe_allocate_none s b n t s' p : arep s b -> n <= 0 \/ t = invalid -> safe_allocate malloc sz s n t = Ret (s', p) -> s' = s /\ p = 0.
  Proof using Hsz.
    intros [R _] H. unfold safe_allocate, mul64. destruct ((- 2 ^ 63 <=? n * sz) && (n * sz <? 2 ^ 63)); [|discriminate]. cbn [obind].
    rewrite allocate_rejects by (destruct H; [left; nia|right; assumption]). cbn [obind]. unfold register_memory. cbn [Z.eqb obind]. intros [= <- <-]. auto.
  Qed.
  Lemma safe_allocate_zero s b n t : arep s b -> n <= 0 \/ t = invalid -> - 2 ^ 63 <= n * sz < 2 ^ 63 -> safe_allocate malloc sz s n t = Ret (s, 0).
  Proof using Hsz.
    intros [R _] H Hb. unfold safe_allocate, mul64. replace ((- 2 ^ 63 <=? n * sz) && (n * sz <? 2 ^ 63)) with true by lia. cbn [obind].
    rewrite allocate_rejects by (destruct H; [left; nia|right; assumption]). reflexivity.
  Qed.
  Lemma safe_allocate_rep s b n t : arep s b -> 0 < n -> n * sz < 2 ^ 63 -> t <> invalid ->
    exists s' p, safe_allocate malloc sz s n t = Ret (s', p) /\ 0 < p /\ (forall q m t', (q, m, t') ∈ live b -> p + n * sz <= q \/ q + m <= p) /\
      arep s' (add_block b p (n * sz) t) /\ bytes s' = bytes s /\ heap s' = (p, n * sz) :: heap s.
  Proof using Hm Hnf Hsz.
    intros [R Hreg] Hn Hb Ht. assert (Hpos : 0 < n * sz) by nia.
    destruct (allocate_rep malloc Hm s b (n * sz) t R Hpos Ht (Hnf _ _ _)) as (s1 & E1 & Hp & Hd & R1 & B1 & H1 & _). set (p := malloc (clock s) (heap s) (n * sz)) in *.
    destruct (register_memory_rep malloc Hm s1 _ p (n * sz) t R1) as (s2 & E2 & R2 & B2 & H2 & _).
    exists s2, p. split.
    { unfold safe_allocate, mul64. replace ((- 2 ^ 63 <=? n * sz) && (n * sz <? 2 ^ 63)) with true by lia. cbn [obind]. rewrite E1. cbn [obind]. rewrite E2. reflexivity. }
    split; [exact Hp|]. split; [exact Hd|]. split; [|split; congruence]. split; [|cbn; congruence].
    replace (add_block b p (n * sz) t) with (next_book (next_book b (MAlloc (n * sz) t) (MPtr p)) (MRegister p (n * sz) t) MUnit); [exact R2|].
    cbn [next_book]. rewrite (decide_False (P := p = 0)) by lia. cbn [live registered n_alloc n_dealloc]. rewrite decide_False by lia. rewrite is_known_false; [reflexivity|].
    rewrite Hreg. intros [m Hk]. pose proof (live_heap _ _ _ _ _ R Hk) as Hh. pose proof (hr_pos _ (sr_hrep _ _ R) _ _ Hh). destruct (Hd _ _ _ Hk); lia.
  Qed.
  Lemma safe_deallocate_unknown s b p n t : arep s b -> ~ known (live b) p t -> - 2 ^ 63 <= n * sz < 2 ^ 63 -> safe_deallocate sz s p n t = Ret s.
  Proof using Hm.
    intros [R Hreg] Hk Hb. unfold safe_deallocate, mul64. replace ((- 2 ^ 63 <=? n * sz) && (n * sz <? 2 ^ 63)) with true by lia. cbn [obind].
    destruct (deregister_memory_rep malloc Hm s b p t R) as (s' & E & _ & _ & _ & _ & _ & Hs). rewrite E. cbn [obind]. rewrite Hs by (rewrite Hreg; exact Hk). apply (deallocate_rejects _ b); assumption.
  Qed.
  Lemma safe_deallocate_rep s b p n t : arep s b -> known (live b) p t -> - 2 ^ 63 <= n * sz < 2 ^ 63 ->
    exists s', safe_deallocate sz s p n t = Ret s' /\ arep s' (drop_block b p t) /\ bytes s' = bytes s /\ (forall q m, (q, m) ∈ heap s' <-> (q, m) ∈ heap s /\ q <> p).
  Proof using Hm.
    intros [R Hreg] Hk Hb. destruct (deregister_memory_rep malloc Hm s b p t R) as (s1 & E1 & R1 & B1 & H1 & _).
    destruct (deallocate_rep malloc Hm s1 _ p t R1 Hk) as (s2 & E2 & R2 & B2 & _ & H2 & _). exists s2. split.
    { unfold safe_deallocate, mul64. replace ((- 2 ^ 63 <=? n * sz) && (n * sz <? 2 ^ 63)) with true by lia. cbn [obind]. rewrite E1. exact E2. }
    split; [|split; [congruence|intros; rewrite H2, H1; reflexivity]]. split; [|cbn; congruence].
    cbn [next_book live registered n_alloc n_dealloc] in R2. rewrite (is_known_true _ _ _ Hk) in R2. exact R2.
  Qed.

  (** what size_bytes, size and get_dynamic_memory_type report *)
  Lemma size_bytes_live s b p n t : arep s b -> (p, n, t) ∈ live b -> size_bytes s p = n /\ get_dynamic_memory_type s p = t.
  Proof using Hm Hnf.
    intros [R Hreg] H. destruct (size_type_rep malloc Hm s b p R) as [H1 H2]. cbn [res_ok] in H1, H2. rewrite Hreg in H1, H2.
    assert (Hu : forall t', t' <> t -> ~ known (live b) p t') by (intros t' Hne [m Hk]; pose proof (live_type_unique _ _ _ _ _ _ _ R H Hk); congruence).
    assert (Hkt : known (live b) p t) by (exists n; exact H).
    split.
    - destruct H2 as (A & B & C & _). destruct t.
      + apply A. exact H.
      + apply B; [apply Hu; discriminate|exact H].
      + apply C; [apply Hu; discriminate|apply Hu; discriminate|exact H].
    - destruct t, (get_dynamic_memory_type s p); try reflexivity; exfalso; try tauto.
      + exact (Hu device ltac:(discriminate) H1).
      + exact (sr_inv _ _ R _ _ H).
      + exact (sr_inv _ _ R _ _ H).
  Qed.
  Lemma size_bytes_dead s b p : arep s b -> (forall t, ~ known (live b) p t) -> size_bytes s p = 0 /\ get_dynamic_memory_type s p = invalid.
  Proof using Hm Hnf.
    intros [R Hreg] H. destruct (size_type_rep malloc Hm s b p R) as [H1 H2]. cbn [res_ok] in H1, H2. rewrite Hreg in H1, H2. split; [apply H2; exact H|].
    destruct (get_dynamic_memory_type s p); [exfalso; apply (H device); exact H1|exfalso; apply (H host); tauto|reflexivity].
  Qed.
  Lemma live_or_dead s b p : arep s b -> (exists n t, (p, n, t) ∈ live b /\ t <> invalid) \/ (forall t, ~ known (live b) p t).
  Proof.
    intros [R _]. destruct (known_dec (live b) p device) as [[n H]|H1]; [left; exists n, device; split; [exact H|discriminate]|].
    destruct (known_dec (live b) p host) as [[n H]|H2]; [left; exists n, host; split; [exact H|discriminate]|]. right. intros [] ; try assumption. intros [n H]. exact (sr_inv _ _ R _ _ H).
  Qed.
  Definition fits63 (b : book) : Prop := forall p n t, (p, n, t) ∈ live b -> n < 2 ^ 63.
  Lemma array_size_bound s b p : arep s b -> fits63 b -> 0 <= array_size sz s p /\ array_size sz s p * sz < 2 ^ 63.
  Proof using Hm Hnf Hsz.
    intros A F. unfold array_size. destruct (live_or_dead _ _ p A) as [(n & t & H & _)|H].
    - destruct (size_bytes_live _ _ _ _ _ A H) as [-> _]. pose proof (F _ _ _ H). destruct A as [R _]. pose proof (live_heap _ _ _ _ _ R H) as Hh. pose proof (hr_pos _ (sr_hrep _ _ R) _ _ Hh).
      destruct (Z.eqb_spec (n mod sz) 0); cbn [negb]; [|lia]. pose proof (Z.div_pos n sz ltac:(lia) ltac:(lia)). pose proof (Z.mul_div_le n sz ltac:(lia)). lia.
    - destruct (size_bytes_dead _ _ _ A H) as [-> _]. rewrite Z.mod_0_l, Z.div_0_l by lia. cbn. lia.
  Qed.
  Lemma array_size_live s b p n t : arep s b -> (p, n * sz, t) ∈ live b -> array_size sz s p = n.
  Proof using Hm Hnf Hsz.
    intros A H. unfold array_size. destruct (size_bytes_live _ _ _ _ _ A H) as [-> _]. rewrite Z.mod_mul, Z.div_mul by lia. reflexivity.
  Qed.
  Lemma array_size_dead s b p : arep s b -> (forall t, ~ known (live b) p t) -> array_size sz s p = 0.
  Proof using Hm Hnf Hsz.
    intros A H. unfold array_size. destruct (size_bytes_dead _ _ _ A H) as [-> _]. rewrite Z.mod_0_l, Z.div_0_l by lia. reflexivity.
  Qed.

  (** uninitialized_fill *)
  Lemma fill_gen v p n : Z.of_nat (length v) = sz -> forall is s, (forall i, i ∈ is -> (i < n)%nat) -> in_block (heap s) p (Z.of_nat n * sz) = true ->
    exists f, fold_left (fun acc i => let! s := acc in store sz s (p + Z.of_nat i * sz) v) is (Ret s) = Ret (set_bytes s f) /\
      (forall i j, i ∈ is -> (j < length v)%nat -> f (p + Z.of_nat i * sz + Z.of_nat j) = nth j v 0) /\
      (forall i j, (i < n)%nat -> (j < length v)%nat -> bytes s (p + Z.of_nat i * sz + Z.of_nat j) = nth j v 0 -> f (p + Z.of_nat i * sz + Z.of_nat j) = nth j v 0) /\
      (forall x, ~ p <= x < p + Z.of_nat n * sz -> f x = bytes s x).
  Proof using Hsz Hord.
    intros Hv. induction is as [|i is IH]; intros s His Hin; cbn [fold_left].
    { exists (bytes s). split; [destruct s; reflexivity|]. split; [intros i j H; inversion H|]. auto. }
    assert (Hi : (i < n)%nat) by (apply His; left). cbn [obind]. unfold store at 2.
    assert (Hb : in_block (heap s) (p + Z.of_nat i * sz) sz = true).
    { apply in_block_elem in Hin as (q & m & Hq & H1 & H2). apply in_block_elem. exists q, m. split; [exact Hq|]. nia. }
    rewrite Hb. set (s1 := set_bytes s (write_bytes (bytes s) (p + Z.of_nat i * sz) v)).
    destruct (IH s1 ltac:(intros i' Hi'; apply His; right; exact Hi') Hin) as (f & E & F1 & F2 & F3). exists f. split; [rewrite E; reflexivity|].
    assert (W : forall i' j, (i' < n)%nat -> (j < length v)%nat -> (i' = i \/ bytes s (p + Z.of_nat i' * sz + Z.of_nat j) = nth j v 0) -> bytes s1 (p + Z.of_nat i' * sz + Z.of_nat j) = nth j v 0).
    { intros i' j Hi' Hj Hor. cbn [s1 bytes set_bytes]. unfold write_bytes. destruct (Nat.eq_dec i' i) as [->|Hne].
      - replace ((p + Z.of_nat i * sz <=? _) && (_ <? p + Z.of_nat i * sz + Z.of_nat (length v))) with true by lia. f_equal. lia.
      - replace ((p + Z.of_nat i * sz <=? p + Z.of_nat i' * sz + Z.of_nat j) && (p + Z.of_nat i' * sz + Z.of_nat j <? p + Z.of_nat i * sz + Z.of_nat (length v))) with false; [destruct Hor; [contradiction|assumption]|].
        symmetry. apply andb_false_iff. destruct (Nat.lt_ge_cases i' i); [left|right]; nia. }
    split; [|split].
    - intros i' j Hi' Hj. apply elem_of_cons in Hi' as [-> |Hi']; [|apply F1; assumption]. apply F2; [exact Hi|exact Hj|]. apply W; auto.
    - intros i' j Hi' Hj H. apply F2; [exact Hi'|exact Hj|]. apply W; auto.
    - intros x Hx. rewrite F3 by exact Hx. cbn [s1 bytes set_bytes]. unfold write_bytes. replace ((p + Z.of_nat i * sz <=? x) && (x <? p + Z.of_nat i * sz + Z.of_nat (length v))) with false; [reflexivity|].
      symmetry. apply andb_false_iff. destruct (Z.lt_ge_cases x p); [left|right]; nia.
  Qed.
  Lemma fill_rep s p n v : 0 <= n -> Z.of_nat (length v) = sz -> in_block (heap s) p (n * sz) = true ->
    exists f, fill_array ord sz s p n v = Ret (set_bytes s f) /\
      (forall i j, Z.of_nat i < n -> (j < length v)%nat -> f (p + Z.of_nat i * sz + Z.of_nat j) = nth j v 0) /\ (forall x, ~ p <= x < p + n * sz -> f x = bytes s x).
  Proof using Hsz Hord.
    intros Hn Hv Hb. rewrite <- (Z2Nat.id n Hn) in Hb.
    destruct (fill_gen v p (Z.to_nat n) Hv (ord (Z.to_nat n)) s) as (f & E & F1 & _ & F3); [|exact Hb|].
    { intros i Hi. rewrite Hord in Hi. apply elem_of_seq in Hi. lia. }
    exists f. split; [exact E|]. split.
    - intros i j Hi Hj. apply F1; [|exact Hj]. rewrite Hord. apply elem_of_seq. lia.
    - rewrite Z2Nat.id in F3 by exact Hn. exact F3.
  Qed.
  Lemma fill_only_bytes v is : forall s s' p, fold_left (fun acc i => let! s := acc in store sz s (p + Z.of_nat i * sz) v) is (Ret s) = Ret s' -> exists f, s' = set_bytes s f.
  Proof using.
    induction is as [|i is IH]; intros s s' p H; cbn [fold_left] in H; [injection H as <-; exists (bytes s); destruct s; reflexivity|]. cbn [obind] in H. unfold store at 2 in H.
    destruct (in_block _ _ _).
    - apply IH in H as [f ->]. exists f. reflexivity.
    - exfalso. clear -H. induction is as [|i' is IH]; [discriminate|]. apply IH. exact H.
  Qed.

  (** createHostArray, copyCreate, createDeviceArray, destroy *)
  Lemma allocate_filled_rep s b n v t : arep s b -> 0 < n -> n * sz < 2 ^ 63 -> t <> invalid -> Z.of_nat (length v) = sz ->
    exists s' p, allocate_filled malloc ord sz s n v t = Ret (s', p) /\ 0 < p /\ (forall q m t', (q, m, t') ∈ live b -> p + n * sz <= q \/ q + m <= p) /\
      arep s' (add_block b p (n * sz) t) /\ heap s' = (p, n * sz) :: heap s /\ (forall i, (Z.of_nat i < n) -> element_at sz s' p i v) /\ (forall x, ~ p <= x < p + n * sz -> bytes s' x = bytes s x).
  Proof using Hm Hnf Hsz Hord.
    intros A Hn Hb Ht Hv. destruct (safe_allocate_rep s b n t A Hn Hb Ht) as (s1 & p & E1 & Hp & Hd & A1 & B1 & H1).
    assert (Hs : array_size sz s1 p = n) by (eapply array_size_live; [exact A1|left]).
    assert (Hin : in_block (heap s1) p (n * sz) = true). { apply in_block_elem. exists p, (n * sz). split; [rewrite H1; left|lia]. }
    destruct (fill_rep s1 p n v ltac:(lia) Hv Hin) as (f & E2 & F1 & F2). exists (set_bytes s1 f), p. split.
    { unfold allocate_filled. rewrite E1. cbn [obind]. rewrite (proj2 (Z.eqb_neq _ _)) by lia. rewrite Hs, E2. reflexivity. }
    split; [exact Hp|]. split; [exact Hd|]. split; [apply arep_bytes; exact A1|]. split; [exact H1|]. split; [|intros x Hx; cbn; rewrite F2 by exact Hx; congruence].
    intros i Hi. split.
    - cbn [heap set_bytes]. apply in_block_elem. exists p, (n * sz). split; [rewrite H1; left|nia].
    - intros j Hj. cbn [bytes set_bytes]. apply F1; assumption.
  Qed.
  Lemma copy_create_rep s b src n st dt : arep s b -> 0 < n -> n * sz < 2 ^ 63 -> dt <> invalid -> inside_live b st src (n * sz) ->
    exists s' p, copy_create_array malloc sz s src n st dt false = Ret (s', p) /\ 0 < p /\ (forall q m t', (q, m, t') ∈ live b -> p + n * sz <= q \/ q + m <= p) /\
      arep s' (add_block b p (n * sz) dt) /\ heap s' = (p, n * sz) :: heap s /\ (forall i, 0 <= i < n * sz -> bytes s' (p + i) = bytes s (src + i)) /\ (forall x, ~ p <= x < p + n * sz -> bytes s' x = bytes s x).
  Proof using Hm Hnf Hsz.
    intros A Hn Hb Ht Hin. destruct (safe_allocate_rep s b n dt A Hn Hb Ht) as (s1 & p & E1 & Hp & Hd & A1 & B1 & H1).
    destruct Hin as (q & m & Hq & Hq1 & Hq2). pose proof (Hd _ _ _ Hq) as Hdq. assert (Hpos : 0 < n * sz) by nia.
    destruct A1 as [R1 G1]. destruct (mem_copy_rep malloc Hm s1 _ p src (n * sz) dt st R1 ltac:(lia) ltac:(lia)) as (s2 & E2 & R2 & _ & Hc).
    destruct Hc as (C1 & C2 & C3 & C4 & C5).
    { exists p, (n * sz). split; [left|lia]. }
    { exists q, m. split; [right; exact Hq|lia]. }
    exists s2, p. split.
    { unfold copy_create_array. rewrite E1. cbn [obind]. rewrite (proj2 (Z.eqb_neq _ _)) by lia. unfold copy_array, mul64. replace ((- 2 ^ 63 <=? n * sz) && (n * sz <? 2 ^ 63)) with true by lia. cbn [obind]. rewrite E2. reflexivity. }
    split; [exact Hp|]. split; [exact Hd|]. split; [split; [exact R2|exact G1]|]. split; [congruence|]. split.
    - intros i Hi. rewrite C1 by lia. rewrite B1. reflexivity.
    - intros x Hx. rewrite C2 by exact Hx. rewrite B1. reflexivity.
  Qed.
  Lemma create_device_rep s b n v : arep s b -> 0 < n -> n * sz < 2 ^ 63 -> Z.of_nat (length v) = sz ->
    exists s' p b', create_device_array malloc dc ord sz s n v = Ret (s', p) /\ 0 < p /\ (forall q m t', (q, m, t') ∈ live b -> p + n * sz <= q \/ q + m <= p) /\
      arep s' b' /\ live b' = (p, n * sz, device) :: live b /\ (forall i, (Z.of_nat i < n) -> element_at sz s' p i v) /\ (forall q m t' x, (q, m, t') ∈ live b -> q <= x < q + m -> bytes s' x = bytes s x).
  Proof using Hm Hnf Hsz Hord.
    intros A Hn Hb Hv. unfold create_device_array. destruct dc.
    { destruct (allocate_filled_rep s b n v device A Hn Hb ltac:(discriminate) Hv) as (s' & p & E & Hp & Hd & A' & H' & F1 & F2). exists s', p, (add_block b p (n * sz) device).
      split; [exact E|]. split; [exact Hp|]. split; [exact Hd|]. split; [exact A'|]. split; [reflexivity|]. split; [exact F1|]. intros q m t' x Hq Hx. apply F2. destruct (Hd _ _ _ Hq); lia. }
    destruct (allocate_filled_rep s b n v host A Hn Hb ltac:(discriminate) Hv) as (s1 & h & E1 & Hh & Hd1 & A1 & H1 & F1 & F2).
    destruct (copy_create_rep s1 _ h n host device A1 Hn Hb ltac:(discriminate)) as (s2 & d & E2 & Hd & Hd2 & A2 & H2 & F3 & F4).
    { exists h, (n * sz). split; [left|lia]. }
    assert (Hhb : (h, n * sz, host) ∈ live (add_block (add_block b h (n * sz) host) d (n * sz) device)) by (right; left).
    assert (Hpos : 0 < n * sz) by nia.
    assert (Hne : h <> d). { intros ->. destruct (Hd2 d (n * sz) host); [left|lia|lia]. }
    assert (Hsz2 : array_size sz s2 h = n) by (eapply array_size_live; [exact A2|exact Hhb]).
    destruct (safe_deallocate_rep s2 _ h n host A2) as (s3 & E3 & A3 & B3 & H3); [exists (n * sz); exact Hhb|lia|].
    exists s3, d. eexists. split.
    { unfold create_host_array. rewrite E1. cbn [obind]. rewrite E2. cbn [obind]. unfold destroy_host_array, deallocate_filled. rewrite Hsz2, E3. reflexivity. }
    split; [exact Hd|]. split; [intros q m t' Hq; apply (Hd2 q m t'); right; exact Hq|]. split; [exact A3|]. split.
    { cbn [live drop_block add_block]. unfold forget. rewrite filter_cons. cbn [fst snd]. rewrite decide_True by (intros [_ ?]; discriminate). f_equal.
      rewrite filter_cons. cbn [fst snd]. rewrite decide_False by tauto. apply forget_unknown. intros [m Hk]. pose proof (live_heap _ _ _ _ _ (proj1 A) Hk) as Hhp. pose proof (hr_pos _ (sr_hrep _ _ (proj1 A)) _ _ Hhp). destruct (Hd1 _ _ _ Hk); lia. }
    split.
    - intros i Hi. destruct (F1 i Hi) as [_ F1b]. split.
      + apply in_block_elem. exists d, (n * sz). split; [apply H3; split; [rewrite H2; left|congruence]|nia].
      + intros j Hj. rewrite B3. replace (d + Z.of_nat i * sz + Z.of_nat j) with (d + (Z.of_nat i * sz + Z.of_nat j)) by lia. rewrite F3 by nia. rewrite Z.add_assoc. apply F1b. exact Hj.
    - intros q m t' x Hq Hx. rewrite B3. rewrite F4 by (destruct (Hd2 q m t' ltac:(right; exact Hq)); lia). apply F2. destruct (Hd1 _ _ _ Hq); lia.
  Qed.
  Lemma destroy_host_rep s b p : arep s b -> fits63 b -> known (live b) p host ->
    exists s', destroy_host_array sz s p = Ret s' /\ arep s' (drop_block b p host) /\ bytes s' = bytes s.
  Proof using Hm Hnf Hsz.
    intros A F Hk. pose proof (array_size_bound s b p A F) as HB. destruct (safe_deallocate_rep s b p (array_size sz s p) host A Hk ltac:(nia)) as (s' & E & A' & B' & _). exists s'. auto.
  Qed.
  Lemma destroy_device_rep opt s b p : arep s b -> fits63 b -> known (live b) p device ->
    exists s' b', destroy_device_array malloc dc sz opt s p = Ret s' /\ arep s' b' /\ live b' = forget (live b) p device /\ (forall q m t' x, (q, m, t') ∈ live b -> q <= x < q + m -> bytes s' x = bytes s x).
  Proof using Hm Hnf Hsz.
    intros A F Hk. pose proof (array_size_bound s b p A F) as HB. unfold destroy_device_array. destruct (dc || opt).
    { destruct (safe_deallocate_rep s b p (array_size sz s p) device A Hk ltac:(nia)) as (s' & E & A' & B' & _). exists s', (drop_block b p device). split; [exact E|]. split; [exact A'|]. split; [reflexivity|]. intros; congruence. }
    destruct Hk as [n0 Hk]. destruct (Z.eq_dec (array_size sz s p) 0) as [E0|E0].
    - (* the block was not made for this element type: nothing to copy *)
      rewrite E0. unfold copy_create_array. rewrite (safe_allocate_zero s b 0 host A ltac:(left; lia) ltac:(lia)). cbn [obind Z.eqb].
      assert (H0 : forall t, ~ known (live b) 0 t) by (intros t H; pose proof (known_pos _ _ _ _ (proj1 A) H); lia).
      unfold destroy_host_array, deallocate_filled. rewrite (safe_deallocate_unknown s b 0 _ host A (H0 host)); [|rewrite (array_size_dead s b 0 A H0); lia]. cbn [obind]. rewrite E0.
      destruct (safe_deallocate_rep s b p 0 device A ltac:(exists n0; exact Hk) ltac:(lia)) as (s' & E & A' & B' & _). exists s', (drop_block b p device). split; [exact E|]. split; [exact A'|]. split; [reflexivity|]. intros; congruence.
    - assert (Hn0 : array_size sz s p * sz = n0).
      { unfold array_size in *. destruct (size_bytes_live _ _ _ _ _ A Hk) as [Eb _]. rewrite Eb in *. destruct (Z.eqb_spec (n0 mod sz) 0) as [Em|Em]; cbn [negb] in *; [|lia]. pose proof (Z.div_mod n0 sz ltac:(lia)). lia. }
      destruct (copy_create_rep s b p (array_size sz s p) device host A ltac:(lia) ltac:(lia) ltac:(discriminate)) as (s1 & h & E1 & Hh & Hd1 & A1 & H1 & F1 & F2).
      { exists p, n0. split; [exact Hk|lia]. }
      rewrite E1. cbn [obind]. set (n := array_size sz s p) in *.
      assert (Fb : fits63 (add_block b h (n * sz) host)). { intros q m t' H. cbn in H. apply elem_of_cons in H as [[= -> -> ->] |H]; [lia|exact (F _ _ _ H)]. }
      destruct (destroy_host_rep s1 _ h A1 Fb) as (s2 & E2 & A2 & B2); [exists (n * sz); left|]. rewrite E2. cbn [obind].
      assert (Hnk : ~ known (live b) h host). { intros [m Hkk]. pose proof (live_heap _ _ _ _ _ (proj1 A) Hkk) as Hhp. pose proof (hr_pos _ (sr_hrep _ _ (proj1 A)) _ _ Hhp). destruct (Hd1 _ _ _ Hkk); lia. }
      assert (L2 : live (drop_block (add_block b h (n * sz) host) h host) = live b).
      { cbn [live drop_block add_block]. unfold forget. rewrite filter_cons. cbn [fst snd]. rewrite decide_False by tauto. apply forget_unknown. exact Hnk. }
      assert (Hk2 : (p, n0, device) ∈ live (drop_block (add_block b h (n * sz) host) h host)) by (rewrite L2; exact Hk).
      assert (Fb2 : fits63 (drop_block (add_block b h (n * sz) host) h host)) by (intros q m t'; rewrite L2; apply F).
      pose proof (array_size_bound s2 _ p A2 Fb2) as HB2.
      destruct (safe_deallocate_rep s2 _ p (array_size sz s2 p) device A2 ltac:(exists n0; exact Hk2) ltac:(nia)) as (s3 & E3 & A3 & B3 & _).
      exists s3. eexists. split; [exact E3|]. split; [exact A3|]. split; [cbn [live drop_block]; cbn [live drop_block] in L2; rewrite L2; reflexivity|].
      intros q m t' x Hq Hx. rewrite B3, B2. apply F2. destruct (Hd1 _ _ _ Hq); lia.
  Qed.

  (** reachability: the array functions keep the bookkeeping *)
  Definition keeps (s s' : mem) : Prop := forall b, arep s b -> fits63 b -> exists b', arep s' b' /\ fits63 b'.
  Lemma keeps_trans s1 s2 s3 : keeps s1 s2 -> keeps s2 s3 -> keeps s1 s3.
  Proof. intros H1 H2 b A F. destruct (H1 b A F) as (b' & A' & F'). exact (H2 b' A' F'). Qed.
  Lemma keeps_bytes s f : keeps s (set_bytes s f).
  Proof. intros b A F. exists b. split; [apply arep_bytes; exact A|exact F]. Qed.
  Lemma keeps_refl s : keeps s s.
  Proof. intros b A F. eauto. Qed.
  Lemma safe_allocate_keeps s n t s' p : safe_allocate malloc sz s n t = Ret (s', p) -> keeps s s'.
  Proof using Hm Hnf Hsz.
    intros E b A F. destruct (decide (n <= 0 \/ t = invalid)) as [H|H].
    { destruct (safe_allocate_none _ _ _ _ _ _ A H E) as [-> _]. eauto. }
    assert (Hb : n * sz < 2 ^ 63). { unfold safe_allocate, mul64 in E. destruct ((- 2 ^ 63 <=? n * sz) && (n * sz <? 2 ^ 63)) eqn:Eb; [lia|discriminate]. }
    destruct (safe_allocate_rep s b n t A) as (s1 & p1 & E1 & Hp & _ & A1 & _); [destruct (Z.leb_spec n 0); [tauto|lia]|exact Hb|tauto|]. rewrite E in E1. injection E1 as <- <-.
    exists (add_block b p (n * sz) t). split; [exact A1|]. intros q m t' H'. cbn in H'. apply elem_of_cons in H' as [[= -> -> ->] |H']; [exact Hb|exact (F _ _ _ H')].
  Qed.
  Lemma safe_deallocate_keeps s p n t s' : safe_deallocate sz s p n t = Ret s' -> keeps s s'.
  Proof using Hm.
    intros E b A F. assert (Hb : - 2 ^ 63 <= n * sz < 2 ^ 63). { unfold safe_deallocate, mul64 in E. destruct ((- 2 ^ 63 <=? n * sz) && (n * sz <? 2 ^ 63)) eqn:Eb; [lia|discriminate]. }
    destruct (known_dec (live b) p t) as [Hk|Hk].
    - destruct (safe_deallocate_rep s b p n t A Hk Hb) as (s1 & E1 & A1 & _). rewrite E in E1. injection E1 as <-. exists (drop_block b p t). split; [exact A1|].
      intros q m t' H. cbn in H. apply forget_elem in H as [H _]. exact (F _ _ _ H).
    - rewrite (safe_deallocate_unknown s b p n t A Hk Hb) in E. injection E as <-. eauto.
  Qed.
  Lemma mem_copy_keeps s dst src n dt st ext s' : mem_copy s dst src n dt st ext = Ret s' -> keeps s s'.
  Proof using.
    unfold mem_copy, backend_memcpy. repeat case_match; intros E; try discriminate; injection E as <-; try apply keeps_refl; apply keeps_bytes.
  Qed.
  Lemma copy_create_keeps s src n st dt ext s' p : copy_create_array malloc sz s src n st dt ext = Ret (s', p) -> keeps s s'.
  Proof using Hm Hnf Hsz.
    unfold copy_create_array. destruct (safe_allocate malloc sz s n dt) as [[s1 p1]| |] eqn:E1; cbn [obind]; try discriminate. pose proof (safe_allocate_keeps _ _ _ _ _ E1) as K1.
    destruct (p1 =? 0); [intros [= <- _]; exact K1|]. unfold copy_array. destruct (mul64 n sz) as [b| |]; cbn [obind]; try discriminate.
    destruct (mem_copy s1 p1 src b dt st ext) as [s2| |] eqn:E2; cbn [obind]; try discriminate. intros [= <- _]. eapply keeps_trans; [exact K1|]. eapply mem_copy_keeps; exact E2.
  Qed.
  Lemma allocate_filled_keeps s n v t s' p : allocate_filled malloc ord sz s n v t = Ret (s', p) -> keeps s s'.
  Proof using Hm Hnf Hsz.
    unfold allocate_filled. destruct (safe_allocate malloc sz s n t) as [[s1 p1]| |] eqn:E1; cbn [obind]; try discriminate. pose proof (safe_allocate_keeps _ _ _ _ _ E1) as K1.
    destruct (p1 =? 0); [intros [= <- _]; exact K1|]. destruct (fill_array ord sz s1 p1 (array_size sz s1 p1) v) as [s2| |] eqn:E2; cbn [obind]; try discriminate. intros [= <- _].
    unfold fill_array in E2. apply fill_only_bytes in E2 as [f ->]. eapply keeps_trans; [exact K1|apply keeps_bytes].
  Qed.
  Lemma arr_step_keeps s op s' r : arr_step malloc dc ord sz s op = Ret (s', r) -> keeps s s'.
  Proof using Hm Hnf Hsz.
    destruct op; cbn [arr_step].
    - unfold create_device_array. destruct dc.
      + destruct (allocate_filled malloc ord sz s n v device) as [[s1 p1]| |] eqn:E1; cbn [obind]; try discriminate. intros [= <- _]. eapply allocate_filled_keeps; exact E1.
      + unfold create_host_array. destruct (allocate_filled malloc ord sz s n v host) as [[s1 h]| |] eqn:E1; cbn [obind]; try discriminate.
        destruct (copy_create_array malloc sz s1 h n host device false) as [[s2 d]| |] eqn:E2; cbn [obind]; try discriminate.
        destruct (destroy_host_array sz s2 h) as [s3| |] eqn:E3; cbn [obind]; try discriminate. intros [= <- _].
        eapply keeps_trans; [eapply allocate_filled_keeps; exact E1|]. eapply keeps_trans; [eapply copy_create_keeps; exact E2|]. eapply safe_deallocate_keeps; exact E3.
    - unfold create_host_array. destruct (allocate_filled malloc ord sz s n v host) as [[s1 p1]| |] eqn:E1; cbn [obind]; try discriminate. intros [= <- _]. eapply allocate_filled_keeps; exact E1.
    - unfold destroy_device_array. destruct (dc || opt).
      + destruct (deallocate_filled sz s p (array_size sz s p) device) as [s1| |] eqn:E1; cbn [obind]; try discriminate. intros [= <- _]. eapply safe_deallocate_keeps; exact E1.
      + destruct (copy_create_array malloc sz s p (array_size sz s p) device host false) as [[s2 d]| |] eqn:E2; cbn [obind]; try discriminate.
        destruct (destroy_host_array sz s2 d) as [s3| |] eqn:E3; cbn [obind]; try discriminate.
        destruct (safe_deallocate sz s3 p (array_size sz s3 p) device) as [s4| |] eqn:E4; cbn [obind]; try discriminate. intros [= <- _].
        eapply keeps_trans; [eapply copy_create_keeps; exact E2|]. eapply keeps_trans; eapply safe_deallocate_keeps; eassumption.
    - destruct (destroy_host_array sz s p) as [s1| |] eqn:E1; cbn [obind]; try discriminate. intros [= <- _]. eapply safe_deallocate_keeps; exact E1.
    - destruct (copy_create_array malloc sz s p n st dt false) as [[s2 d]| |] eqn:E2; cbn [obind]; try discriminate. intros [= <- _]. eapply copy_create_keeps; exact E2.
    - unfold copy_array. destruct (mul64 n sz) as [b| |]; cbn [obind]; try discriminate. destruct (mem_copy s dst src b dt st false) as [s2| |] eqn:E2; cbn [obind]; try discriminate. intros [= <- _]. eapply mem_copy_keeps; exact E2.
    - intros [= <- _]. apply keeps_refl.
  Qed.
  End sized.

  Lemma arr_run_keeps ops : sized ops -> forall s s' rs, arr_run malloc dc ord s ops = Ret (s', rs) -> keeps s s'.
  Proof using Hm Hnf.
    induction ops as [|[sz op] ops IH]; intros Hs s s' rs; cbn [arr_run]; [intros [= <- _]; apply keeps_refl|].
    destruct (arr_step malloc dc ord sz s op) as [[s1 r]| |] eqn:E1; cbn [obind]; try discriminate. destruct (arr_run malloc dc ord s1 ops) as [[s2 rs2]| |] eqn:E2; cbn [obind]; try discriminate.
    intros [= <- _]. eapply keeps_trans; [eapply arr_step_keeps; [apply (Hs sz op); left|exact E1]|]. eapply IH; [|exact E2]. intros sz' op' H. apply (Hs sz' op'). right. exact H.
  Qed.
  Lemma arr_reach ops s rs : sized ops -> arr_run malloc dc ord mem0 ops = Ret (s, rs) -> exists b, arep s b /\ fits63 b.
  Proof using Hm Hnf. intros Hs E. apply (arr_run_keeps ops Hs _ _ _ E book0 arep0). intros p n t H. inversion H. Qed.
End arrays.
