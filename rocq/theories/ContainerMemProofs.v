(** Proofs about the memory use of the containers. *)
From Verif Require Import Base BitModel AlgoModel AlgoProofs BitsetModel VectorModel UnorderedModel CapacityProofs.
From Verif Require Import MemoryModel MemorySpec MemoryProofs MemoryArrayProofs ContainerMemModel ContainerMemSpec.

(** a block together with what is known about its content *)
Definition tblock : Type := block * option (Z -> Z).
Definition holds (s : mem) (L : list tblock) : Prop :=
  forall p n t f x, ((p, n, t), Some f) ∈ L -> p <= x < p + n -> bytes s x = f x.
(** the live blocks are those of L *)
Definition tracks (s : mem) (L : list tblock) : Prop :=
  exists b, arep s b /\ fits63 b /\ live b ≡ₚ L.*1 /\ holds s L.
Definition mk (p n : Z) (t : mtype) (c : option (Z -> Z)) : list tblock := if decide (p = 0) then [] else [((p, n, t), c)].
Definition zc (z : bool) : option (Z -> Z) := if z then Some (fun _ => 0) else None.

(** the blocks of the parts qs at the pointers ps *)
Fixpoint pblocks (c : bool -> option (Z -> Z)) (ps : list Z) (qs : list part) : list tblock :=
  match ps, qs with p :: ps, q :: qs => mk p q.1.1 q.1.2 (c q.2) ++ pblocks c ps qs | _, _ => [] end.
Definition good (ps : list Z) (qs : list part) : Prop := Forall2 (fun p q => p = 0 <-> q.1.1 = 0) ps qs.

(** move the first list of the left-hand side to the front of the right-hand side, and cancel *)
Ltac perm_lists :=
  unfold int_size, default_bits; rewrite <- ?app_assoc; rewrite ?app_nil_r; cbn [app];
  repeat match goal with
  | |- ?l ≡ₚ ?l => reflexivity
  | |- ?x ++ _ ≡ₚ ?x ++ _ => apply Permutation_app_head
  | |- ?x ++ _ ≡ₚ ?r => match r with context [?y ++ x ++ ?z] => rewrite (Permutation_app_swap_app y x z) end
  | |- ?x ++ _ ≡ₚ ?r => match r with context [?y ++ x] => rewrite (Permutation_app_comm y x) end
  end.
Ltac good_parts := unfold good; cbn [vector_pointers deque_pointers vector_parts deque_parts]; repeat (apply List.Forall2_cons; [cbn [fst snd bits_part counter_part vh_locks vh_occupied vh_size vh_data dh_locks dh_occupied dh_size dh_begin dh_end dh_data dh_indices]; unfold int_size in *; try assumption|]); [..|apply List.Forall2_nil].
Lemma iff_mul p n sz : 0 < sz -> (p = 0 <-> n = 0) -> (p = 0 <-> n * sz = 0).
Proof. intros Hs H. rewrite H. split; nia. Qed.
Lemma tracks0 : tracks mem0 [].
Proof. exists book0. split; [apply arep0|]. split; [intros p n t H; inversion H|]. split; [reflexivity|]. intros p n t f x H. inversion H. Qed.
Lemma tracks_perm s L L' : L ≡ₚ L' -> tracks s L -> tracks s L'.
Proof. intros P (b & A & F & E & H). exists b. split; [exact A|]. split; [exact F|]. split; [rewrite E, P; reflexivity|]. intros p n t f x Hin. apply (H p n t f x). rewrite P. exact Hin. Qed.
Lemma tracks_content s L L' : L'.*1 = L.*1 -> holds s L' -> tracks s L -> tracks s L'.
Proof. intros E H (b & A & F & Eb & _). exists b. split; [exact A|]. split; [exact F|]. split; [rewrite E; exact Eb|exact H]. Qed.

Lemma nth_zeros n i : nth i (replicate n 0) 0 = 0.
Proof. revert i. induction n as [|n IH]; intros [|i]; cbn; auto. Qed.
Lemma forget_perm s b p n t l : srep s b -> live b ≡ₚ (p, n, t) :: l -> forget (live b) p t ≡ₚ l.
Proof.
  intros R E. assert (Hp : forget (live b) p t ≡ₚ forget ((p, n, t) :: l) p t) by (unfold forget; rewrite E; reflexivity).
  assert (Hc : forget ((p, n, t) :: l) p t = forget l p t) by (unfold forget; rewrite filter_cons; cbn [fst snd]; rewrite decide_False by tauto; reflexivity).
  rewrite Hp, Hc, forget_unknown; [reflexivity|].
  intros [m Hm]. pose proof (hrep_keys _ (sr_hrep _ _ R)) as ND. rewrite (sr_heap _ _ R), E in ND. cbn [fmap list_fmap fst] in ND.
  apply NoDup_cons in ND as [N _]. apply N. apply elem_of_list_fmap. exists (p, m). split; [reflexivity|]. apply elem_of_list_fmap. exists (p, m, t). auto.
Qed.

Section containers.
  Context (malloc : nat -> list (Z * Z) -> Z -> Z) (Hm : malloc_ok malloc) (Hnf : never_fails malloc).
  Context (dc : bool) (ord : nat -> list nat) (Hord : forall n, ord n ≡ₚ seq 0 n).

  Lemma t_alloc sz s L n : 0 < sz -> tracks s L -> 0 <= n -> n * sz < 2 ^ 63 ->
    exists s' p, safe_allocate malloc sz s n device = Ret (s', p) /\ tracks s' (mk p (n * sz) device None ++ L) /\ (p = 0 <-> n = 0).
  Proof using Hm Hnf.
    intros Hsz (b & A & F & E & H) Hn Hb. destruct (Z.eq_dec n 0) as [-> |Hn0].
    - exists s, 0. split; [apply (safe_allocate_zero malloc sz Hsz s b); [exact A|left; lia|lia]|]. split; [|tauto]. unfold mk. rewrite decide_True by reflexivity. exists b. auto.
    - destruct (safe_allocate_rep malloc Hm Hnf sz Hsz s b n device A ltac:(lia) Hb ltac:(discriminate)) as (s' & p & E' & Hp & Hd & A' & B' & H'). exists s', p. split; [exact E'|]. split; [|lia].
      unfold mk. rewrite decide_False by lia. exists (add_block b p (n * sz) device). split; [exact A'|]. split.
      { intros q m t Hq. cbn [add_block live] in Hq. apply elem_of_cons in Hq as [[= -> -> ->] |Hq]; [lia|exact (F _ _ _ Hq)]. }
      split; [cbn; rewrite E; reflexivity|]. intros q m t f x Hq Hx. apply elem_of_cons in Hq as [Hq|Hq]; [discriminate|]. rewrite B'. exact (H _ _ _ _ _ Hq Hx).
  Qed.
  Lemma t_filled sz s L n : 0 < sz -> tracks s L -> 0 <= n -> n * sz < 2 ^ 63 ->
    exists s' p, allocate_filled malloc ord sz s n (zeros sz) device = Ret (s', p) /\ tracks s' (mk p (n * sz) device (Some (fun _ => 0)) ++ L) /\ (p = 0 <-> n = 0).
  Proof using Hm Hnf Hord.
    intros Hsz (b & A & F & E & H) Hn Hb. destruct (Z.eq_dec n 0) as [-> |Hn0].
    - exists s, 0. split; [unfold allocate_filled; rewrite (safe_allocate_zero malloc sz Hsz s b); [reflexivity|exact A|left; lia|lia]|]. split; [|tauto]. unfold mk. rewrite decide_True by reflexivity. exists b. auto.
    - assert (Hl : Z.of_nat (length (zeros sz)) = sz) by (unfold zeros; rewrite replicate_length; lia).
      destruct (allocate_filled_rep malloc Hm Hnf ord Hord sz Hsz s b n (zeros sz) device A ltac:(lia) Hb ltac:(discriminate) Hl) as (s' & p & E' & Hp & Hd & A' & H' & C' & B'). exists s', p. split; [exact E'|]. split; [|lia].
      unfold mk. rewrite decide_False by lia. exists (add_block b p (n * sz) device). split; [exact A'|]. split.
      { intros q m t Hq. cbn [add_block live] in Hq. apply elem_of_cons in Hq as [[= -> -> ->] |Hq]; [lia|exact (F _ _ _ Hq)]. }
      split; [cbn; rewrite E; reflexivity|]. intros q m t f x Hq Hx. apply elem_of_cons in Hq as [[= -> -> -> ->] |Hq].
      + destruct (C' (Z.to_nat ((x - p) / sz))) as [_ C].
        { rewrite Z2Nat.id by (apply Z.div_pos; lia). apply Z.div_lt_upper_bound; lia. }
        specialize (C (Z.to_nat ((x - p) mod sz))). pose proof (Z.mod_pos_bound (x - p) sz Hsz). rewrite Z2Nat.id in C by (apply Z.div_pos; lia). rewrite Z2Nat.id in C by lia.
        replace (p + (x - p) / sz * sz + (x - p) mod sz) with x in C by (pose proof (Z.div_mod (x - p) sz ltac:(lia)); lia).
        rewrite C by lia. unfold zeros. apply nth_zeros.
      + rewrite B'; [exact (H _ _ _ _ _ Hq Hx)|]. assert (Hq' : (q, m, t) ∈ live b) by (rewrite E; apply elem_of_list_fmap; eexists; split; [|exact Hq]; reflexivity). destruct (Hd _ _ _ Hq'); lia.
  Qed.
  Lemma t_free sz s L p n0 n t c : 0 < sz -> tracks s (mk p n0 t c ++ L) -> 0 <= n -> n * sz < 2 ^ 63 ->
    exists s', safe_deallocate sz s p n t = Ret s' /\ tracks s' L.
  Proof using Hm.
    intros Hsz (b & A & F & E & H) Hn Hb. unfold mk in E, H. destruct (decide (p = 0)) as [-> |Hp].
    - exists s. split; [|exists b; auto]. apply (safe_deallocate_unknown malloc Hm sz s b 0 n t A); [|lia]. intros H0. pose proof (known_pos _ _ _ _ (proj1 A) H0). lia.
    - cbn [app fmap list_fmap fst] in E. destruct (safe_deallocate_rep malloc Hm sz s b p n t A) as (s' & E' & A' & B' & _); [exists n0; rewrite E; left|lia|].
      exists s'. split; [exact E'|]. exists (drop_block b p t). split; [exact A'|]. assert (Hl : live (drop_block b p t) ≡ₚ L.*1) by (cbn [drop_block live]; exact (forget_perm s b p n0 t _ (proj1 A) E)).
      split. { intros q m t' Hq. cbn [drop_block live] in Hq. apply forget_elem in Hq as [Hq _]. exact (F _ _ _ Hq). }
      split; [exact Hl|]. intros q m t' f x Hq Hx. rewrite B'. apply (H q m t' f x); [right; exact Hq|exact Hx].
  Qed.

  Lemma nblocks bpb size : 0 < bpb -> 0 <= size -> number_bit_blocks bpb size = Ret ((size + bpb - 1) / bpb).
  Proof.
    intros Hb Hs. unfold number_bit_blocks. destruct (div_up_spec size bpb) as [D _]. destruct (D Hs Hb) as (q & -> & Hq & H1 & H2). f_equal.
    apply Z.div_unique_pos with (r := size + bpb - 1 - bpb * q). 2: lia. specialize (H2 (q - 1)). nia.
  Qed.

  Lemma t_weak s A B p n t c : tracks s (A ++ mk p n t c ++ B) -> tracks s (A ++ mk p n t None ++ B).
  Proof.
    intros T. apply (tracks_content s (A ++ mk p n t c ++ B)); [| |exact T].
    - unfold mk. rewrite !fmap_app. destruct (decide (p = 0)); reflexivity.
    - destruct T as (b & _ & _ & _ & H). intros q m t' f x Hq. apply (H q m t' f x). rewrite !elem_of_app in *. unfold mk in *. destruct (decide (p = 0)); [exact Hq|].
      destruct Hq as [Hq|[Hq|Hq]]; auto. apply elem_of_list_singleton in Hq. discriminate.
  Qed.

  Lemma t_bits bpb s L size : bpb = 32 \/ bpb = 64 -> tracks s L -> 0 <= size <= INT_MAX ->
    exists s' h, bitset_mem_create malloc ord bpb s size = Ret (s', h) /\ bh_size h = size /\ tracks s' (mk (bh_blocks h) (bits_bytes bpb size) device (zc true) ++ L) /\
      (bh_blocks h = 0 <-> bits_bytes bpb size = 0).
  Proof using Hm Hnf Hord.
    intros Hb T Hs. unfold INT_MAX in Hs. unfold bitset_mem_create. rewrite nblocks by lia. cbn [obind].
    assert (Hn : 0 <= (size + bpb - 1) / bpb <= size + 1) by (split; [apply Z.div_pos; lia|]; apply Z.div_le_upper_bound; [lia|]; destruct Hb; subst; lia).
    assert (H8 : bpb / 8 = 4 \/ bpb / 8 = 8) by (destruct Hb as [-> | ->]; [left|right]; reflexivity).
    destruct (t_filled (bpb / 8) s L ((size + bpb - 1) / bpb) ltac:(lia) T ltac:(lia) ltac:(nia)) as (s' & p & E & T' & Hp). rewrite E. cbn [obind].
    exists s', {| bh_blocks := p; bh_size := size |}. split; [reflexivity|]. split; [reflexivity|]. split; [exact T'|]. cbn [bh_blocks]. unfold bits_bytes. rewrite Hp. split; nia.
  Qed.
  Lemma t_bits_free bpb s L h n0 c : bpb = 32 \/ bpb = 64 -> tracks s (mk (bh_blocks h) n0 device c ++ L) -> 0 <= bh_size h <= INT_MAX ->
    exists s', bitset_mem_destroy bpb s h = Ret (s', {| bh_blocks := 0; bh_size := 0 |}) /\ tracks s' L.
  Proof using Hm.
    intros Hb T Hs. unfold INT_MAX in Hs. unfold bitset_mem_destroy. rewrite nblocks by lia. cbn [obind].
    assert (Hn : 0 <= (bh_size h + bpb - 1) / bpb <= bh_size h + 1) by (split; [apply Z.div_pos; lia|]; apply Z.div_le_upper_bound; [lia|]; destruct Hb; subst; lia).
    assert (H8 : bpb / 8 = 4 \/ bpb / 8 = 8) by (destruct Hb as [-> | ->]; [left|right]; reflexivity).
    destruct (t_free (bpb / 8) s L (bh_blocks h) n0 ((bh_size h + bpb - 1) / bpb) device c ltac:(lia) T ltac:(lia) ltac:(nia)) as (s' & E & T'). unfold deallocate_filled. rewrite E. cbn [obind].
    exists s'. auto.
  Qed.
  Lemma t_atomic sz s L : 0 < sz <= 2 ^ 32 -> tracks s L ->
    exists s' p, atomic_create malloc ord sz s = Ret (s', p) /\ tracks s' (mk p sz device (zc true) ++ L) /\ (p = 0 <-> sz = 0).
  Proof using Hm Hnf Hord.
    intros Hs T. destruct (t_filled sz s L 1 ltac:(lia) T ltac:(lia) ltac:(lia)) as (s' & p & E & T' & Hp). exists s', p. split; [exact E|]. rewrite Z.mul_1_l in T'. split; [exact T'|lia].
  Qed.
  Lemma t_atomic_free sz s L p n0 c : 0 < sz <= 2 ^ 32 -> tracks s (mk p n0 device c ++ L) ->
    exists s', atomic_destroy sz s p = Ret (s', 0) /\ tracks s' L.
  Proof using Hm.
    intros Hs T. destruct (t_free sz s L p n0 1 device c ltac:(lia) T ltac:(lia) ltac:(lia)) as (s' & E & T'). exists s'. unfold atomic_destroy, deallocate_filled. rewrite E. auto.
  Qed.

  Lemma t_vector sz s L n : 0 < sz <= 2 ^ 32 -> tracks s L -> 0 < n <= INT_MAX ->
    exists s' h, vector_mem_create malloc ord sz s n = Ret (s', h) /\ tracks s' (pblocks zc (vector_pointers h) (vector_parts sz n true) ++ L) /\
      good (vector_pointers h) (vector_parts sz n true) /\ bh_size (vh_locks h) = n /\ bh_size (vh_occupied h) = n.
  Proof using Hm Hnf Hord.
    intros Hs T Hn. pose proof Hn as Hn'. unfold INT_MAX in Hn'. unfold vector_mem_create. rewrite (proj2 (Z.ltb_lt _ _)) by lia. unfold mutex_mem_create.
    destruct (t_bits default_bits s L n ltac:(left; reflexivity) T ltac:(lia)) as (s1 & h1 & E1 & S1 & T1 & Z1). rewrite E1. cbn [obind].
    destruct (t_bits default_bits s1 _ n ltac:(left; reflexivity) T1 ltac:(lia)) as (s2 & h2 & E2 & S2 & T2 & Z2). rewrite E2. cbn [obind].
    destruct (t_atomic int_size s2 _ ltac:(unfold int_size; lia) T2) as (s3 & p3 & E3 & T3 & Z3). rewrite E3. cbn [obind].
    destruct (t_alloc sz s3 _ n ltac:(lia) T3 ltac:(lia) ltac:(nia)) as (s4 & p4 & E4 & T4 & Z4). rewrite E4. cbn [obind].
    eexists s4, _. split; [reflexivity|]. cbn [vh_locks vh_occupied]. split; [|split; [|auto]].
    - refine (tracks_perm _ _ _ _ T4). cbn [vector_pointers vector_parts pblocks vh_locks vh_occupied vh_size vh_data fst snd bits_part counter_part zc]. perm_lists.
    - good_parts; try tauto; split; intros; nia.
  Qed.
  Lemma t_vector_free sz s L h qs c : 0 < sz <= 2 ^ 32 -> length qs = 4%nat -> Forall (fun q => q.1.2 = device) qs ->
    tracks s (pblocks c (vector_pointers h) qs ++ L) -> 0 <= bh_size (vh_locks h) <= INT_MAX -> 0 <= bh_size (vh_occupied h) <= INT_MAX ->
    exists s' h', vector_mem_destroy sz s h = Ret (s', h') /\ tracks s' L /\ Forall (fun p => p = 0) (vector_pointers h') /\ bh_size (vh_locks h') = 0 /\ bh_size (vh_occupied h') = 0.
  Proof using Hm.
    intros Hs Hq Ht T H1 H2. do 5 (destruct qs as [|? qs]; try discriminate Hq). repeat (apply Forall_cons in Ht as [? Ht]). destruct p as [[n1 t1] c1], p0 as [[n2 t2] c2], p1 as [[n3 t3] c3], p2 as [[n4 t4] c4].
    cbn [fst snd] in *. subst. unfold vector_mem_destroy, mutex_mem_destroy. cbn [vector_pointers pblocks fst snd] in T. unfold INT_MAX in *.
    destruct (t_free sz s (mk (bh_blocks (vh_locks h)) n1 device (c c1) ++ mk (bh_blocks (vh_occupied h)) n2 device (c c2) ++ mk (vh_size h) n3 device (c c3) ++ L) (vh_data h) n4 (bh_size (vh_occupied h)) device (c c4) ltac:(lia)) as (s1 & E1 & T1); [|lia|nia|].
    { refine (tracks_perm _ _ _ _ T). perm_lists. }
    rewrite E1. cbn [obind].
    destruct (t_bits_free default_bits s1 _ (vh_locks h) n1 (c c1) ltac:(left; reflexivity) T1 ltac:(unfold INT_MAX; lia)) as (s2 & E2 & T2). rewrite E2. cbn [obind].
    destruct (t_bits_free default_bits s2 _ (vh_occupied h) n2 (c c2) ltac:(left; reflexivity) T2 ltac:(unfold INT_MAX; lia)) as (s3 & E3 & T3). rewrite E3. cbn [obind].
    destruct (t_atomic_free int_size s3 _ (vh_size h) n3 (c c3) ltac:(unfold int_size; lia) T3) as (s4 & E4 & T4). rewrite E4. cbn [obind].
    eexists s4, _. split; [reflexivity|]. split; [exact T4|]. split; [repeat constructor|auto].
  Qed.

  Lemma t_deque sz s L n : 0 < sz <= 2 ^ 32 -> tracks s L -> 0 < n <= INT_MAX ->
    exists s' h, deque_mem_create malloc ord sz s n = Ret (s', h) /\ tracks s' (pblocks zc (deque_pointers h) (deque_parts sz n) ++ L) /\
      good (deque_pointers h) (deque_parts sz n) /\ bh_size (dh_locks h) = n /\ bh_size (dh_occupied h) = n.
  Proof using Hm Hnf Hord.
    intros Hs T Hn. pose proof Hn as Hn'. unfold INT_MAX in Hn'. unfold deque_mem_create. rewrite (proj2 (Z.ltb_lt _ _)) by lia. unfold mutex_mem_create.
    destruct (t_bits default_bits s L n ltac:(left; reflexivity) T ltac:(lia)) as (s1 & h1 & E1 & S1 & T1 & Z1). rewrite E1. cbn [obind].
    destruct (t_bits default_bits s1 _ n ltac:(left; reflexivity) T1 ltac:(lia)) as (s2 & h2 & E2 & S2 & T2 & Z2). rewrite E2. cbn [obind].
    destruct (t_atomic int_size s2 _ ltac:(unfold int_size; lia) T2) as (s3 & p3 & E3 & T3 & Z3). rewrite E3. cbn [obind].
    destruct (t_atomic int_size s3 _ ltac:(unfold int_size; lia) T3) as (s4 & p4 & E4 & T4 & Z4). rewrite E4. cbn [obind].
    destruct (t_atomic int_size s4 _ ltac:(unfold int_size; lia) T4) as (s5 & p5 & E5 & T5 & Z5). rewrite E5. cbn [obind].
    destruct (t_alloc sz s5 _ n ltac:(lia) T5 ltac:(lia) ltac:(nia)) as (s6 & p6 & E6 & T6 & Z6). rewrite E6. cbn [obind].
    destruct (t_alloc int_size s6 _ n ltac:(unfold int_size; lia) T6 ltac:(lia) ltac:(unfold int_size; lia)) as (s7 & p7 & E7 & T7 & Z7). rewrite E7. cbn [obind].
    eexists s7, _. split; [reflexivity|]. cbn [dh_locks dh_occupied]. split; [|split; [|auto]].
    - refine (tracks_perm _ _ _ _ T7). cbn [deque_pointers deque_parts pblocks dh_locks dh_occupied dh_size dh_begin dh_end dh_data dh_indices fst snd bits_part counter_part zc]. perm_lists.
    - good_parts; try tauto; split; intros; nia.
  Qed.
  Lemma t_deque_free sz s L h qs c : 0 < sz <= 2 ^ 32 -> length qs = 7%nat -> Forall (fun q => q.1.2 = device) qs ->
    tracks s (pblocks c (deque_pointers h) qs ++ L) -> 0 <= bh_size (dh_locks h) <= INT_MAX -> 0 <= bh_size (dh_occupied h) <= INT_MAX ->
    exists s' h', deque_mem_destroy sz s h = Ret (s', h') /\ tracks s' L /\ Forall (fun p => p = 0) (deque_pointers h') /\ bh_size (dh_locks h') = 0 /\ bh_size (dh_occupied h') = 0.
  Proof using Hm.
    intros Hs Hq Ht T H1 H2. do 8 (destruct qs as [|? qs]; try discriminate Hq). repeat (apply Forall_cons in Ht as [? Ht]).
    destruct p as [[n1 t1] c1], p0 as [[n2 t2] c2], p1 as [[n3 t3] c3], p2 as [[n4 t4] c4], p3 as [[n5 t5] c5], p4 as [[n6 t6] c6], p5 as [[n7 t7] c7].
    cbn [fst snd] in *. subst. unfold deque_mem_destroy, mutex_mem_destroy. cbn [deque_pointers pblocks fst snd] in T. unfold INT_MAX in *.
    destruct (t_free sz s (mk (dh_indices h) n7 device (c c7) ++ mk (bh_blocks (dh_locks h)) n1 device (c c1) ++ mk (bh_blocks (dh_occupied h)) n2 device (c c2) ++ mk (dh_size h) n3 device (c c3) ++ mk (dh_begin h) n4 device (c c4) ++ mk (dh_end h) n5 device (c c5) ++ L)
      (dh_data h) n6 (bh_size (dh_occupied h)) device (c c6) ltac:(lia)) as (s1 & E1 & T1); [|lia|nia|].
    { refine (tracks_perm _ _ _ _ T). perm_lists. }
    rewrite E1. cbn [obind].
    destruct (t_free int_size s1 _ (dh_indices h) n7 (bh_size (dh_occupied h)) device (c c7) ltac:(unfold int_size; lia) T1 ltac:(lia) ltac:(unfold int_size; lia)) as (s2 & E2 & T2). rewrite E2. cbn [obind].
    destruct (t_bits_free default_bits s2 _ (dh_locks h) n1 (c c1) ltac:(left; reflexivity) T2 ltac:(unfold INT_MAX; lia)) as (s3 & E3 & T3). rewrite E3. cbn [obind].
    destruct (t_bits_free default_bits s3 _ (dh_occupied h) n2 (c c2) ltac:(left; reflexivity) T3 ltac:(unfold INT_MAX; lia)) as (s4 & E4 & T4). rewrite E4. cbn [obind].
    destruct (t_atomic_free int_size s4 _ (dh_size h) n3 (c c3) ltac:(unfold int_size; lia) T4) as (s5 & E5 & T5). rewrite E5. cbn [obind].
    destruct (t_atomic_free int_size s5 _ (dh_begin h) n4 (c c4) ltac:(unfold int_size; lia) T5) as (s6 & E6 & T6). rewrite E6. cbn [obind].
    destruct (t_atomic_free int_size s6 _ (dh_end h) n5 (c c5) ltac:(unfold int_size; lia) T6) as (s7 & E7 & T7). rewrite E7. cbn [obind].
    eexists s7, _. split; [reflexivity|]. split; [exact T7|]. split; [repeat constructor|auto].
  Qed.

  Definition unordered_pointers (h : unordered_handle) : list Z :=
    [bh_blocks (uh_occupied h); uh_count h] ++ vector_pointers (uh_excess h) ++ [bh_blocks (uh_locks h); uh_range_end h; uh_values h; uh_offsets h; uh_indices h].
  Lemma t_unordered sz s L n : 0 < sz <= 2 ^ 32 -> tracks s L -> 0 < n <= 2 ^ 30 ->
    exists s' h, unordered_mem_create malloc ord sz s n = Ret (s', h) /\
      tracks s' (pblocks zc (unordered_pointers h) (unordered_parts sz (bucket_count_for n + excess_of n) (excess_of n)) ++ L) /\
      good (unordered_pointers h) (unordered_parts sz (bucket_count_for n + excess_of n) (excess_of n)) /\
      0 <= bh_size (uh_occupied h) <= INT_MAX /\ 0 <= bh_size (uh_locks h) <= INT_MAX /\ 0 <= bh_size (vh_locks (uh_excess h)) <= INT_MAX /\ 0 <= bh_size (vh_occupied (uh_excess h)) <= INT_MAX.
  Proof using Hm Hnf Hord.
    intros Hs T Hn. destruct (sizes_for n Hn) as (k & E & Hk & Eb & Ex & HE & Hlt & Hmax). unfold unordered_mem_create. rewrite (proj2 (Z.ltb_lt _ _)) by lia.
    unfold excess_of. rewrite Ex. cbn [obind]. rewrite Eb. assert (0 < 2 ^ k) by lia. set (tot := 2 ^ k + E) in *. rewrite (proj2 (Z.leb_le tot _)) by lia. assert (Ht : 0 < tot <= INT_MAX) by lia. unfold mutex_mem_create.
    assert (HEm : 0 < E <= INT_MAX) by lia. pose proof Ht as Ht'. unfold INT_MAX in Ht'.
    destruct (t_bits default_bits s L tot ltac:(left; reflexivity) T ltac:(lia)) as (s1 & h1 & E1 & S1 & T1 & Z1). rewrite E1. cbn [obind].
    destruct (t_atomic int_size s1 _ ltac:(unfold int_size; lia) T1) as (s2 & p2 & E2 & T2 & Z2). rewrite E2. cbn [obind].
    destruct (t_vector int_size s2 _ E ltac:(unfold int_size; lia) T2 HEm) as (s3 & h3 & E3 & T3 & G3 & S3 & S3'). rewrite E3. cbn [obind].
    destruct (t_bits default_bits s3 _ tot ltac:(left; reflexivity) T3 ltac:(lia)) as (s4 & h4 & E4 & S4 & T4 & Z4). rewrite E4. cbn [obind].
    destruct (t_atomic int_size s4 _ ltac:(unfold int_size; lia) T4) as (s5 & p5 & E5 & T5 & Z5). rewrite E5. cbn [obind].
    destruct (t_alloc sz s5 _ tot ltac:(lia) T5 ltac:(lia) ltac:(nia)) as (s6 & p6 & E6 & T6 & Z6). rewrite E6. cbn [obind].
    destruct (t_filled int_size s6 _ tot ltac:(unfold int_size; lia) T6 ltac:(lia) ltac:(unfold int_size; lia)) as (s7 & p7 & E7 & T7 & Z7). rewrite E7. cbn [obind].
    destruct (t_alloc int_size s7 _ tot ltac:(unfold int_size; lia) T7 ltac:(lia) ltac:(unfold int_size; lia)) as (s8 & p8 & E8 & T8 & Z8). rewrite E8. cbn [obind].
    eexists s8, _. split; [reflexivity|]. cbn [uh_occupied uh_locks uh_excess]. split; [|split; [|rewrite S1, S4, S3, S3'; lia]].
    - cbn [unordered_pointers uh_occupied uh_count uh_excess uh_locks uh_range_end uh_values uh_offsets uh_indices app]. unfold unordered_parts.
      cbn [vector_pointers vector_parts pblocks fst snd bits_part counter_part zc app] in *.
      set (X1 := mk (bh_blocks (vh_locks h3)) (bits_bytes 32 E) device) in *. set (X2 := mk (bh_blocks (vh_occupied h3)) (bits_bytes 32 E) device) in *. set (X3 := mk (vh_size h3) 4 device) in *.
      assert (W : forall c1 c2 c3 R, tracks s8 (X1 (Some c1) ++ X2 (Some c2) ++ X3 (Some c3) ++ R) -> tracks s8 (X1 None ++ X2 None ++ X3 None ++ R)).
      { intros c1 c2 c3 R W. apply (t_weak s8 [] _ _ _ _ _) in W. cbn [app] in W. apply (t_weak s8 (X1 None) _ _ _ _ _) in W. rewrite app_assoc in W. apply (t_weak s8 (X1 None ++ X2 None) _ _ _ _ _) in W. rewrite <- app_assoc in W. exact W. }
      assert (P : tracks s8 (X1 (Some (fun _ => 0)) ++ X2 (Some (fun _ => 0)) ++ X3 (Some (fun _ => 0)) ++ mk p8 (tot * 4) device None ++ mk p7 (tot * 4) device (Some (fun _ => 0)) ++ mk p6 (tot * sz) device None ++
        mk p5 4 device (Some (fun _ => 0)) ++ mk (bh_blocks h4) (bits_bytes 32 tot) device (Some (fun _ => 0)) ++ mk (vh_data h3) (E * 4) device None ++ mk p2 4 device (Some (fun _ => 0)) ++ mk (bh_blocks h1) (bits_bytes 32 tot) device (Some (fun _ => 0)) ++ L)).
      { refine (tracks_perm _ _ _ _ T8). unfold default_bits, int_size in *. perm_lists. }
      apply W in P. refine (tracks_perm _ _ _ _ P). perm_lists.
    - cbn [unordered_pointers uh_occupied uh_count uh_excess uh_locks uh_range_end uh_values uh_offsets uh_indices app]. unfold unordered_parts.
      cbn [vector_pointers vector_parts app] in *. unfold good in G3. repeat (apply Forall2_cons in G3 as [? G3]). good_parts; cbn [fst snd bits_part counter_part] in *; first [assumption|apply iff_mul; [lia|assumption]].
  Qed.
  Lemma t_unordered_free sz s L h qs c : 0 < sz <= 2 ^ 32 -> length qs = 11%nat -> Forall (fun q => q.1.2 = device) qs ->
    tracks s (pblocks c (unordered_pointers h) qs ++ L) ->
    0 <= bh_size (uh_occupied h) <= INT_MAX /\ 0 <= bh_size (uh_locks h) <= INT_MAX /\ 0 <= bh_size (vh_locks (uh_excess h)) <= INT_MAX /\ 0 <= bh_size (vh_occupied (uh_excess h)) <= INT_MAX ->
    exists s' h', unordered_mem_destroy sz s h = Ret (s', h') /\ tracks s' L /\
      0 <= bh_size (uh_occupied h') <= INT_MAX /\ 0 <= bh_size (uh_locks h') <= INT_MAX /\ 0 <= bh_size (vh_locks (uh_excess h')) <= INT_MAX /\ 0 <= bh_size (vh_occupied (uh_excess h')) <= INT_MAX.
  Proof using Hm.
    intros Hs Hq Ht T (H1 & H2 & H3 & H4). do 12 (destruct qs as [|? qs]; try discriminate Hq). repeat (apply Forall_cons in Ht as [? Ht]).
    unfold unordered_mem_destroy, mutex_mem_destroy. unfold unordered_pointers in T. cbn [vector_pointers pblocks fst snd app] in T. unfold INT_MAX in *.
    destruct p as [[n1 t1] c1], p0 as [[n2 t2] c2], p1 as [[n3 t3] c3], p2 as [[n4 t4] c4], p3 as [[n5 t5] c5], p4 as [[n6 t6] c6], p5 as [[n7 t7] c7], p6 as [[n8 t8] c8], p7 as [[n9 t9] c9], p8 as [[n10 t10] c10], p9 as [[n11 t11] c11].
    cbn [fst snd] in *. subst.
    destruct (t_free sz s (mk (uh_offsets h) n10 device (c c10) ++ mk (uh_indices h) n11 device (c c11) ++ mk (bh_blocks (uh_occupied h)) n1 device (c c1) ++ mk (uh_count h) n2 device (c c2) ++ mk (bh_blocks (uh_locks h)) n7 device (c c7) ++
      pblocks c (vector_pointers (uh_excess h)) [(n3, device, c3); (n4, device, c4); (n5, device, c5); (n6, device, c6)] ++ mk (uh_range_end h) n8 device (c c8) ++ L)
      (uh_values h) n9 (bh_size (uh_occupied h)) device (c c9) ltac:(lia)) as (s1 & E1 & T1); [|lia|nia|].
    { refine (tracks_perm _ _ _ _ T). cbn [vector_pointers pblocks fst snd]. perm_lists. }
    rewrite E1. cbn [obind]. unfold deallocate_filled.
    destruct (t_free int_size s1 _ (uh_offsets h) n10 (bh_size (uh_occupied h)) device (c c10) ltac:(unfold int_size; lia) T1 ltac:(lia) ltac:(unfold int_size; lia)) as (s2 & E2 & T2). rewrite E2. cbn [obind].
    destruct (t_free int_size s2 _ (uh_indices h) n11 (bh_size (uh_occupied h)) device (c c11) ltac:(unfold int_size; lia) T2 ltac:(lia) ltac:(unfold int_size; lia)) as (s3 & E3 & T3). rewrite E3. cbn [obind].
    destruct (t_bits_free default_bits s3 _ (uh_occupied h) n1 (c c1) ltac:(left; reflexivity) T3 ltac:(unfold INT_MAX; lia)) as (s4 & E4 & T4). rewrite E4. cbn [obind].
    destruct (t_atomic_free int_size s4 _ (uh_count h) n2 (c c2) ltac:(unfold int_size; lia) T4) as (s5 & E5 & T5). rewrite E5. cbn [obind].
    destruct (t_bits_free default_bits s5 _ (uh_locks h) n7 (c c7) ltac:(left; reflexivity) T5 ltac:(unfold INT_MAX; lia)) as (s6 & E6 & T6). rewrite E6. cbn [obind].
    destruct (t_vector_free int_size s6 _ (uh_excess h) [(n3, device, c3); (n4, device, c4); (n5, device, c5); (n6, device, c6)] c ltac:(unfold int_size; lia) ltac:(reflexivity) ltac:(repeat constructor) T6 ltac:(unfold INT_MAX; lia) ltac:(unfold INT_MAX; lia)) as (s7 & h7 & E7 & T7 & Z7 & S7 & S7').
    rewrite E7. cbn [obind].
    destruct (t_atomic_free int_size s7 _ (uh_range_end h) n8 (c c8) ltac:(unfold int_size; lia) T7) as (s8 & E8 & T8). rewrite E8. cbn [obind].
    eexists s8, _. split; [reflexivity|]. split; [exact T8|]. cbn [uh_occupied uh_locks uh_excess bh_size]. rewrite S7, S7'. lia.
  Qed.
End containers.
