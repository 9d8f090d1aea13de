(** Histories of container objects: the live blocks are those of the living objects. *)
From Verif Require Import Base BitModel AlgoModel BitsetModel VectorModel UnorderedModel CapacityProofs.
From Verif Require Import MemoryModel MemorySpec MemoryProofs MemoryArrayProofs MemoryFinalProofs ContainerMemModel ContainerMemSpec ContainerMemProofs.

Definition unordered_bounds (h : unordered_handle) : Prop :=
  0 <= bh_size (uh_occupied h) <= INT_MAX /\ 0 <= bh_size (uh_locks h) <= INT_MAX /\ 0 <= bh_size (vh_locks (uh_excess h)) <= INT_MAX /\ 0 <= bh_size (vh_occupied (uh_excess h)) <= INT_MAX.
Definition of_kind (k : kind) (o : object) : Prop :=
  match k, o with
  | KAtomic sz, OAtomic sz' _ => sz' = sz
  | KBitset b _, OBitset b' h | KMutexes b _, OMutexes b' h => b' = b /\ 0 <= bh_size h <= INT_MAX
  | KVector sz _, OVector sz' h => sz' = sz /\ 0 <= bh_size (vh_locks h) <= INT_MAX /\ 0 <= bh_size (vh_occupied h) <= INT_MAX
  | KDeque sz _, ODeque sz' h | KAdapter sz _, OAdapter sz' h => sz' = sz /\ 0 <= bh_size (dh_locks h) <= INT_MAX /\ 0 <= bh_size (dh_occupied h) <= INT_MAX
  | KUnordered sz _, OUnordered sz' h => sz' = sz /\ unordered_bounds h
  | KDeviceArray sz _ _, ODeviceArray sz' _ | KHostArray sz _ _, OHostArray sz' _ => sz' = sz
  | _, _ => False
  end.

(** a destroyed object: all pointers nullptr, all sizes 0 *)
Definition null_bits : bitset_handle := {| bh_blocks := 0; bh_size := 0 |}.
Definition null_deque : deque_handle := {| dh_locks := null_bits; dh_occupied := null_bits; dh_size := 0; dh_begin := 0; dh_end := 0; dh_data := 0; dh_indices := 0 |}.
Definition null_object (k : kind) : object :=
  match k with
  | KAtomic sz => OAtomic sz 0 | KBitset b _ => OBitset b null_bits | KMutexes b _ => OMutexes b null_bits
  | KVector sz _ => OVector sz {| vh_locks := null_bits; vh_occupied := null_bits; vh_size := 0; vh_data := 0 |}
  | KDeque sz _ => ODeque sz null_deque | KAdapter sz _ => OAdapter sz null_deque
  | KUnordered sz _ => OAtomic sz 0
  | KDeviceArray sz _ _ => ODeviceArray sz 0 | KHostArray sz _ _ => OHostArray sz 0
  end.
Lemma null_pointers k : Forall (fun p => p = 0) (pointers (null_object k)).
Proof. destruct k; repeat constructor. Qed.

Section life.
  Context (malloc : nat -> list (Z * Z) -> Z -> Z) (Hm : malloc_ok malloc) (Hnf : never_fails malloc).
  Context (dc : bool) (ord : nat -> list nat) (Hord : forall n, ord n ≡ₚ seq 0 n).

  Lemma t_device_array sz s L n v : 0 < sz <= 2 ^ 32 -> tracks s L -> 0 < n <= INT_MAX -> Z.of_nat (length v) = sz ->
    exists s' p, create_device_array malloc dc ord sz s n v = Ret (s', p) /\ tracks s' (mk p (n * sz) device None ++ L) /\ (p = 0 <-> n * sz = 0).
  Proof using Hm Hnf Hord.
    intros Hs (b & A & F & E & H) Hn Hv. unfold INT_MAX in Hn.
    destruct (create_device_rep malloc Hm Hnf dc ord Hord sz ltac:(lia) s b n v A ltac:(lia) ltac:(nia) Hv) as (s' & p & b' & E' & Hp & Hd & A' & L' & C' & B').
    exists s', p. split; [exact E'|]. split; [|split; nia]. unfold mk. rewrite decide_False by lia. exists b'. split; [exact A'|]. split.
    { intros q m t Hq. rewrite L' in Hq. apply elem_of_cons in Hq as [[= -> -> ->] |Hq]; [nia|exact (F _ _ _ Hq)]. }
    split; [rewrite L'; cbn; rewrite E; reflexivity|]. intros q m t f x Hq Hx. apply elem_of_cons in Hq as [Hq|Hq]; [discriminate|].
    rewrite (B' q m t x); [exact (H _ _ _ _ _ Hq Hx)| |exact Hx]. rewrite E. apply elem_of_list_fmap. eexists. split; [|exact Hq]. reflexivity.
  Qed.
  Lemma t_host_array sz s L n v : 0 < sz <= 2 ^ 32 -> tracks s L -> 0 < n <= INT_MAX -> Z.of_nat (length v) = sz ->
    exists s' p, create_host_array malloc ord sz s n v = Ret (s', p) /\ tracks s' (mk p (n * sz) host None ++ L) /\ (p = 0 <-> n * sz = 0).
  Proof using Hm Hnf Hord.
    intros Hs (b & A & F & E & H) Hn Hv. unfold INT_MAX in Hn.
    destruct (allocate_filled_rep malloc Hm Hnf ord Hord sz ltac:(lia) s b n v host A ltac:(lia) ltac:(nia) ltac:(discriminate) Hv) as (s' & p & E' & Hp & Hd & A' & L' & C' & B').
    exists s', p. split; [exact E'|]. split; [|split; nia]. unfold mk. rewrite decide_False by lia. exists (add_block b p (n * sz) host). split; [exact A'|]. split.
    { intros q m t Hq. cbn [add_block live] in Hq. apply elem_of_cons in Hq as [[= -> -> ->] |Hq]; [nia|exact (F _ _ _ Hq)]. }
    split; [cbn; rewrite E; reflexivity|]. intros q m t f x Hq Hx. apply elem_of_cons in Hq as [Hq|Hq]; [discriminate|].
    rewrite B'; [exact (H _ _ _ _ _ Hq Hx)|]. assert (Hq' : (q, m, t) ∈ live b) by (rewrite E; apply elem_of_list_fmap; eexists; split; [|exact Hq]; reflexivity). destruct (Hd _ _ _ Hq'); lia.
  Qed.
  Lemma t_device_array_free sz opt s L p n c : 0 < sz <= 2 ^ 32 -> tracks s (mk p n device c ++ L) ->
    exists s', destroy_device_array malloc dc sz opt s p = Ret s' /\ tracks s' L.
  Proof using Hm Hnf.
    intros Hs (b & A & F & E & H). unfold mk in E, H. destruct (decide (p = 0)) as [-> |Hp].
    - exists s. split; [|exists b; auto]. assert (H0 : forall t, ~ known (live b) 0 t) by (intros t H0; pose proof (known_pos _ _ _ _ (proj1 A) H0); lia).
      unfold destroy_device_array. rewrite (array_size_dead malloc Hm Hnf sz ltac:(lia) s b 0 A H0). destruct (dc || opt).
      + apply (safe_deallocate_unknown malloc Hm sz s b 0 0 device A (H0 _)). lia.
      + unfold copy_create_array. rewrite (safe_allocate_zero malloc sz ltac:(lia) s b 0 host A ltac:(left; lia) ltac:(lia)). cbn [obind Z.eqb].
        unfold destroy_host_array, deallocate_filled. rewrite (array_size_dead malloc Hm Hnf sz ltac:(lia) s b 0 A H0).
        rewrite (safe_deallocate_unknown malloc Hm sz s b 0 0 host A (H0 _)) by lia. cbn [obind]. rewrite (array_size_dead malloc Hm Hnf sz ltac:(lia) s b 0 A H0). apply (safe_deallocate_unknown malloc Hm sz s b 0 0 device A (H0 _)). lia.
    - cbn [app fmap list_fmap fst] in E. destruct (destroy_device_rep malloc Hm Hnf dc sz ltac:(lia) opt s b p A F) as (s' & b' & E' & A' & L' & B'); [exists n; rewrite E; left|].
      exists s'. split; [exact E'|]. exists b'. split; [exact A'|]. split; [intros q m t Hq; rewrite L' in Hq; apply forget_elem in Hq as [Hq _]; exact (F _ _ _ Hq)|].
      split; [rewrite L'; exact (forget_perm s b p n device _ (proj1 A) E)|]. intros q m t f x Hq Hx. rewrite (B' q m t x); [apply (H q m t f x); [right; exact Hq|exact Hx]| |exact Hx].
      rewrite E. right. apply elem_of_list_fmap. eexists. split; [|exact Hq]. reflexivity.
  Qed.
  Lemma t_host_array_free sz s L p n c : 0 < sz <= 2 ^ 32 -> tracks s (mk p n host c ++ L) ->
    exists s', destroy_host_array sz s p = Ret s' /\ tracks s' L.
  Proof using Hm Hnf.
    intros Hs T. pose proof T as (b & A & F & _). pose proof (array_size_bound malloc Hm Hnf sz ltac:(lia) s b p A F) as HB.
    unfold destroy_host_array, deallocate_filled. apply (t_free malloc Hm sz s L p n _ host c); [lia|exact T|lia|lia].
  Qed.

  Lemma create_ok s L k : kind_ok k -> tracks s L ->
    exists s' o, create_object malloc dc ord s k = Ret (s', o) /\ tracks s' (pblocks zc (pointers o) (parts k) ++ L) /\ good (pointers o) (parts k) /\ of_kind k o.
  Proof using Hm Hnf Hord.
    intros Hk T. destruct k as [sz|bpb n|bpb n|sz n|sz n|sz n|sz n|sz n v|sz n v]; cbn [kind_ok create_object] in *; unfold size_ok in *.
    - destruct (t_atomic malloc Hm Hnf ord Hord sz s L ltac:(lia) T) as (s' & p & E & T' & Z'). rewrite E. cbn [obind]. eexists s', _. split; [reflexivity|]. cbn [pointers parts pblocks]. rewrite app_nil_r. split; [exact T'|]. split; [repeat constructor; apply Z'|reflexivity].
    - destruct (t_bits malloc Hm Hnf ord Hord bpb s L n ltac:(tauto) T ltac:(lia)) as (s' & h & E & S' & T' & Z'). rewrite E. cbn [obind]. eexists s', _. split; [reflexivity|]. cbn [pointers parts pblocks]. rewrite app_nil_r.
      split; [exact T'|]. split; [repeat constructor; apply Z'|]. cbn. rewrite S'. split; [reflexivity|lia].
    - unfold mutex_mem_create. destruct (t_bits malloc Hm Hnf ord Hord bpb s L n ltac:(tauto) T ltac:(lia)) as (s' & h & E & S' & T' & Z'). rewrite E. cbn [obind]. eexists s', _. split; [reflexivity|]. cbn [pointers parts pblocks]. rewrite app_nil_r.
      split; [exact T'|]. split; [repeat constructor; apply Z'|]. cbn. rewrite S'. split; [reflexivity|lia].
    - destruct (t_vector malloc Hm Hnf ord Hord sz s L n ltac:(lia) T ltac:(lia)) as (s' & h & E & T' & G' & S1 & S2). rewrite E. cbn [obind]. eexists s', _. split; [reflexivity|]. split; [exact T'|]. split; [exact G'|]. cbn. rewrite S1, S2. split; [reflexivity|lia].
    - destruct (t_deque malloc Hm Hnf ord Hord sz s L n ltac:(lia) T ltac:(lia)) as (s' & h & E & T' & G' & S1 & S2). rewrite E. cbn [obind]. eexists s', _. split; [reflexivity|]. split; [exact T'|]. split; [exact G'|]. cbn. rewrite S1, S2. split; [reflexivity|lia].
    - unfold adapter_mem_create. rewrite (proj2 (Z.ltb_lt _ _)) by lia. destruct (t_deque malloc Hm Hnf ord Hord sz s L n ltac:(lia) T ltac:(lia)) as (s' & h & E & T' & G' & S1 & S2). rewrite E. cbn [obind]. eexists s', _. split; [reflexivity|]. split; [exact T'|]. split; [exact G'|]. cbn. rewrite S1, S2. split; [reflexivity|lia].
    - destruct (t_unordered malloc Hm Hnf ord Hord sz s L n ltac:(lia) T ltac:(lia)) as (s' & h & E & T' & G' & B'). rewrite E. cbn [obind]. eexists s', _. split; [reflexivity|]. split; [exact T'|]. split; [exact G'|]. split; [reflexivity|exact B'].
    - destruct (t_device_array sz s L n v ltac:(lia) T ltac:(lia) ltac:(lia)) as (s' & p & E & T' & Z'). rewrite E. cbn [obind]. eexists s', _. split; [reflexivity|]. cbn [pointers parts pblocks]. rewrite app_nil_r. split; [exact T'|]. split; [repeat constructor; apply Z'|reflexivity].
    - destruct (t_host_array sz s L n v ltac:(lia) T ltac:(lia) ltac:(lia)) as (s' & p & E & T' & Z'). rewrite E. cbn [obind]. eexists s', _. split; [reflexivity|]. cbn [pointers parts pblocks]. rewrite app_nil_r. split; [exact T'|]. split; [repeat constructor; apply Z'|reflexivity].
  Qed.
  Lemma destroy_ok opt s L k o c : kind_ok k -> of_kind k o -> tracks s (pblocks c (pointers o) (parts k) ++ L) ->
    exists s' o', destroy_object malloc dc opt s o = Ret (s', o') /\ tracks s' L /\ of_kind k o' /\ (is_unordered k = false -> Forall (fun p => p = 0) (pointers o')).
  Proof using Hm Hnf.
    intros Hk Ho T. destruct k as [sz|bpb n|bpb n|sz n|sz n|sz n|sz n|sz n v|sz n v], o; cbn [of_kind] in Ho; try contradiction; cbn [kind_ok destroy_object is_unordered] in *; unfold size_ok in *; try lazymatch type of Ho with _ /\ _ => destruct Ho as [-> Ho] | _ = _ => rewrite Ho end;
      cbn [pointers parts] in T; cbn [pblocks fst snd bits_part] in T; try rewrite app_nil_r in T.
    - destruct (t_atomic_free malloc Hm sz s L _ _ _ ltac:(lia) T) as (s' & E & T'). rewrite E. cbn [obind]. eexists s', _. split; [reflexivity|]. split; [exact T'|]. split; [reflexivity|repeat constructor].
    - destruct (t_bits_free malloc Hm bpb s L _ _ _ ltac:(tauto) T ltac:(lia)) as (s' & E & T'). rewrite E. cbn [obind]. eexists s', _. split; [reflexivity|]. split; [exact T'|]. split; [cbn; lia|repeat constructor].
    - unfold mutex_mem_destroy. destruct (t_bits_free malloc Hm bpb s L _ _ _ ltac:(tauto) T ltac:(lia)) as (s' & E & T'). rewrite E. cbn [obind]. eexists s', _. split; [reflexivity|]. split; [exact T'|]. split; [cbn; lia|repeat constructor].
    - destruct (t_vector_free malloc Hm sz s L h (vector_parts sz n true) c ltac:(lia) ltac:(reflexivity) ltac:(repeat constructor) T ltac:(tauto) ltac:(tauto)) as (s' & h' & E & T' & Z' & S1 & S2). rewrite E. cbn [obind]. eexists s', _. split; [reflexivity|]. split; [exact T'|]. split; [cbn; rewrite S1, S2; lia|intros _; exact Z'].
    - destruct (t_deque_free malloc Hm sz s L h (deque_parts sz n) c ltac:(lia) ltac:(reflexivity) ltac:(repeat constructor) T ltac:(tauto) ltac:(tauto)) as (s' & h' & E & T' & Z' & S1 & S2). rewrite E. cbn [obind]. eexists s', _. split; [reflexivity|]. split; [exact T'|]. split; [cbn; rewrite S1, S2; lia|intros _; exact Z'].
    - unfold adapter_mem_destroy. destruct (t_deque_free malloc Hm sz s L h (deque_parts sz n) c ltac:(lia) ltac:(reflexivity) ltac:(repeat constructor) T ltac:(tauto) ltac:(tauto)) as (s' & h' & E & T' & Z' & S1 & S2). rewrite E. cbn [obind]. eexists s', _. split; [reflexivity|]. split; [exact T'|]. split; [cbn; rewrite S1, S2; lia|intros _; exact Z'].
    - fold (unordered_pointers h) in T. destruct (t_unordered_free malloc Hm sz s L h (parts (KUnordered sz n)) c ltac:(lia) ltac:(reflexivity) ltac:(repeat constructor) T Ho) as (s' & h' & E & T' & B'). rewrite E. cbn [obind]. eexists s', _. split; [reflexivity|]. split; [exact T'|]. split; [split; [reflexivity|exact B']|discriminate].
    - destruct (t_device_array_free sz opt s L _ _ _ ltac:(lia) T) as (s' & E & T'). rewrite E. cbn [obind]. eexists s', _. split; [reflexivity|]. split; [exact T'|]. split; [reflexivity|repeat constructor].
    - destruct (t_host_array_free sz s L _ _ _ ltac:(lia) T) as (s' & E & T'). rewrite E. cbn [obind]. eexists s', _. split; [reflexivity|]. split; [exact T'|]. split; [reflexivity|repeat constructor].
  Qed.

  Lemma destroy_null opt s k o s' o' : of_kind k o -> is_unordered k = false -> destroy_object malloc dc opt s o = Ret (s', o') -> o' = null_object k.
  Proof using.
    intros Ho Hu E. destruct k, o; cbn [of_kind] in Ho; try contradiction; try discriminate; cbn [destroy_object null_object] in *;
      try lazymatch type of Ho with _ /\ _ => destruct Ho as [-> _] | _ = _ => rewrite Ho in * end;
      unfold atomic_destroy, adapter_mem_destroy, deque_mem_destroy, vector_mem_destroy, mutex_mem_destroy, bitset_mem_destroy, obind in E;
      repeat (case_match; simplify_eq); unfold atomic_destroy, obind in *; repeat (case_match; simplify_eq); reflexivity.
  Qed.
  Lemma null_again opt s b k : kind_ok k -> is_unordered k = false -> arep s b -> destroy_object malloc dc opt s (null_object k) = Ret (s, null_object k).
  Proof using Hm Hnf.
    intros Hk Hu A. assert (H0 : forall t, ~ known (live b) 0 t) by (intros t H; pose proof (known_pos _ _ _ _ (proj1 A) H); lia).
    assert (D : forall sz n t, - 2 ^ 63 <= n * sz < 2 ^ 63 -> safe_deallocate sz s 0 n t = Ret s) by (intros sz n t HB; exact (safe_deallocate_unknown malloc Hm sz s b 0 n t A (H0 t) HB)).
    assert (B32 : bitset_mem_destroy 32 s null_bits = Ret (s, null_bits)).
    { unfold bitset_mem_destroy. change (number_bit_blocks 32 (bh_size null_bits)) with (@Ret Z 0). cbn [obind]. unfold deallocate_filled. rewrite D by lia. reflexivity. }
    assert (B64 : bitset_mem_destroy 64 s null_bits = Ret (s, null_bits)).
    { unfold bitset_mem_destroy. change (number_bit_blocks 64 (bh_size null_bits)) with (@Ret Z 0). cbn [obind]. unfold deallocate_filled. rewrite D by lia. reflexivity. }
    assert (At : forall sz, 0 < sz <= 2 ^ 32 -> atomic_destroy sz s 0 = Ret (s, 0)) by (intros sz Hs; unfold atomic_destroy, deallocate_filled; rewrite D by lia; reflexivity).
    assert (Dq : forall sz, 0 < sz <= 2 ^ 32 -> deque_mem_destroy sz s null_deque = Ret (s, null_deque)).
    { intros sz Hs. unfold deque_mem_destroy, mutex_mem_destroy, int_size, default_bits. cbn [null_deque dh_locks dh_occupied dh_size dh_begin dh_end dh_data dh_indices].
      rewrite D by (cbn; lia). cbn [obind]. rewrite D by (cbn; lia). cbn [obind]. rewrite B32. cbn [obind]. rewrite B32. cbn [obind]. do 3 (rewrite At by lia; cbn [obind]). reflexivity. }
    assert (Z0 : forall sz, 0 < sz -> array_size sz s 0 = 0) by (intros sz Hs; exact (array_size_dead malloc Hm Hnf sz Hs s b 0 A H0)).
    destruct k as [sz|bpb n|bpb n|sz n|sz n|sz n|sz n|sz n v|sz n v]; try discriminate; cbn [kind_ok null_object destroy_object] in *; unfold size_ok in *.
    - rewrite At by lia. reflexivity.
    - destruct Hk as [[-> | ->] _]; [rewrite B32|rewrite B64]; reflexivity.
    - unfold mutex_mem_destroy. destruct Hk as [[-> | ->] _]; [rewrite B32|rewrite B64]; reflexivity.
    - unfold vector_mem_destroy, mutex_mem_destroy, int_size, default_bits. cbn [vh_locks vh_occupied vh_size vh_data]. rewrite D by (cbn; lia). cbn [obind]. rewrite B32. cbn [obind]. rewrite B32. cbn [obind]. rewrite At by lia. reflexivity.
    - rewrite Dq by lia. reflexivity.
    - unfold adapter_mem_destroy. rewrite Dq by lia. reflexivity.
    - unfold destroy_device_array, destroy_host_array, deallocate_filled. rewrite !(Z0 sz) by lia. destruct (dc || opt); [rewrite D by lia; reflexivity|].
      unfold copy_create_array. rewrite (safe_allocate_zero malloc sz ltac:(lia) s b 0 host A ltac:(left; lia) ltac:(lia)). cbn [obind Z.eqb]. rewrite !(Z0 sz) by lia. rewrite !D by lia. cbn [obind]. rewrite !(Z0 sz) by lia. rewrite !D by lia. reflexivity.
    - unfold destroy_host_array, deallocate_filled. rewrite (Z0 sz) by lia. rewrite D by lia. reflexivity.
  Qed.

  (** ** histories *)
  Definition tl1 (c : bool -> option (Z -> Z)) (k : kind * bool) (o : object) : list tblock := if k.2 then pblocks c (pointers o) (parts k.1) else [].
  Definition tl (c : bool -> option (Z -> Z)) (ks : objects) (objs : list object) : list tblock := mjoin (zip_with (tl1 c) ks objs).
  Definition obj_ok (k : kind * bool) (o : object) : Prop :=
    kind_ok k.1 /\ of_kind k.1 o /\ (if k.2 then good (pointers o) (parts k.1) else is_unordered k.1 = false -> o = null_object k.1).
  Definition none_c (_ : bool) : option (Z -> Z) := None.
  Definition life_inv (s : mem) (ks : objects) (objs : list object) : Prop := tracks s (tl none_c ks objs) /\ Forall2 obj_ok ks objs.

  Lemma mk_fst p n t c c' : (mk p n t c).*1 = (mk p n t c').*1.
  Proof. unfold mk. destruct (decide (p = 0)); reflexivity. Qed.
  Lemma pblocks_fst c c' ps qs : (pblocks c ps qs).*1 = (pblocks c' ps qs).*1.
  Proof. revert qs. induction ps as [|p ps IH]; intros [|q qs]; try reflexivity. cbn [pblocks]. rewrite !fmap_app, (IH qs), (mk_fst _ _ _ (c q.2) (c' q.2)). reflexivity. Qed.
  Lemma tl_cons c k ks o objs : tl c (k :: ks) (o :: objs) = tl1 c k o ++ tl c ks objs.
  Proof. reflexivity. Qed.
  Lemma live_cons k ks o objs : live_blocks (k :: ks) (o :: objs) = (if k.2 then object_blocks k.1 o else []) ++ live_blocks ks objs.
  Proof. reflexivity. Qed.
  Lemma tl_fst c c' ks objs : (tl c ks objs).*1 = (tl c' ks objs).*1.
  Proof.
    revert objs. induction ks as [|k ks IH]; intros [|o objs]; try reflexivity. rewrite !tl_cons, !fmap_app, IH. f_equal. unfold tl1. destruct k.2; [apply pblocks_fst|reflexivity].
  Qed.
  Lemma pblocks_blocks c ps qs : good ps qs -> (pblocks c ps qs).*1 = filter (fun b => b.1.2 <> 0) (zip_with (fun p q => (p, q.1.1, q.1.2)) ps (qs : list part)).
  Proof.
    intros G. induction G as [|p q ps qs Hpq G IH]; [reflexivity|]. cbn [pblocks zip_with]. rewrite fmap_app, IH. rewrite filter_cons. cbn [fst snd]. unfold mk. destruct (decide (p = 0)) as [Hp|Hp].
    - rewrite decide_False by tauto. reflexivity.
    - rewrite decide_True by tauto. reflexivity.
  Qed.
  Lemma tl_blocks c ks objs : Forall2 obj_ok ks objs -> (tl c ks objs).*1 = live_blocks ks objs.
  Proof.
    intros F. induction F as [|k o ks objs (_ & _ & H) F IH]; [reflexivity|]. rewrite tl_cons, live_cons, fmap_app, IH. f_equal.
    unfold tl1. destruct k as [k [|]]; cbn [fst snd] in *; [|reflexivity]. apply pblocks_blocks. exact H.
  Qed.
  Lemma tl_app c K1 O1 k o K2 O2 : length K1 = length O1 -> tl c (K1 ++ k :: K2) (O1 ++ o :: O2) = tl c K1 O1 ++ tl1 c k o ++ tl c K2 O2.
  Proof.
    revert O1. induction K1 as [|a K1 IH]; intros [|b O1] HL; try discriminate; [reflexivity|].
    rewrite <- !app_comm_cons, !tl_cons, IH by (cbn in HL; lia). rewrite <- app_assoc. reflexivity.
  Qed.
  Lemma pblocks_content c ps qs b x : (b, x) ∈ pblocks c ps qs -> exists z, x = c z.
  Proof.
    revert qs. induction ps as [|q l IH]; intros [|r l'] Hl; try solve [inversion Hl].
    cbn [pblocks] in Hl. apply elem_of_app in Hl as [Hl|Hl]; [|eapply IH; exact Hl]. unfold mk in Hl. destruct (decide (q = 0)); [inversion Hl|]. apply elem_of_list_singleton in Hl. injection Hl as _ ->. eauto.
  Qed.
  Lemma tl_content c ks objs b x : (b, x) ∈ tl c ks objs -> exists z, x = c z.
  Proof.
    revert objs. induction ks as [|k ks IH]; intros [|o objs] Hl; try solve [inversion Hl]. rewrite tl_cons in Hl. apply elem_of_app in Hl as [Hl|Hl]; [|eapply IH; exact Hl].
    unfold tl1 in Hl. destruct k.2; [|inversion Hl]. eapply pblocks_content. exact Hl.
  Qed.
  Lemma tracks_blocks s L ks objs : L.*1 ≡ₚ (tl none_c ks objs).*1 -> tracks s L -> tracks s (tl none_c ks objs).
  Proof.
    intros P (b & A & F & E & H). exists b. split; [exact A|]. split; [exact F|]. split; [rewrite E; exact P|]. intros p n t f x Hin _. apply tl_content in Hin as [z Hz]. discriminate.
  Qed.
  Lemma tracks_now s ks objs : tracks s (tl none_c ks objs) -> tracks s (tl (fun _ => Some (bytes s)) ks objs).
  Proof.
    intros T. refine (tracks_content s _ _ (tl_fst _ _ _ _) _ T). intros p n t f x Hin _. apply tl_content in Hin as [z Hz]. injection Hz as ->. reflexivity.
  Qed.
  (** what the contents tell *)
  Lemma tracks_bytes s L c k o : tracks s (pblocks c (pointers o) (parts k) ++ L) -> good (pointers o) (parts k) ->
    forall j p q f x, pointers o !! j = Some p -> parts k !! j = Some q -> c q.2 = Some f -> p <= x < p + q.1.1 -> bytes s x = f x.
  Proof.
    intros (b & _ & _ & _ & H) G j p q f x Hp Hq Hc Hx. apply (H p q.1.1 q.1.2 f x); [|exact Hx]. apply elem_of_app. left. clear -Hp Hq Hc Hx G.
    revert j Hp Hq. induction G as [|p' q' ps qs Hpq G IH]; intros j Hp Hq; [discriminate|]. cbn [pblocks]. apply elem_of_app. destruct j as [|j]; cbn in Hp, Hq.
    - left. injection Hp as ->. injection Hq as ->. unfold mk. rewrite decide_False by (intros E; apply Hpq in E; lia). rewrite Hc. left.
    - right. eapply IH; eassumption.
  Qed.
  Lemma blocks_at k o p n t : (p, n, t) ∈ object_blocks k o -> exists j q, pointers o !! j = Some p /\ parts k !! j = Some q /\ n = q.1.1.
  Proof.
    unfold object_blocks. intros H. apply elem_of_list_filter in H as [_ H]. apply elem_of_lookup_zip_with in H as (j & p' & q & E & H1 & H2). injection E as -> -> ->. eauto.
  Qed.

  Lemma split_at {A} (l : list A) i x : l !! i = Some x -> exists l1 l2, l = l1 ++ x :: l2 /\ length l1 = i.
  Proof. intros H. exists (take i l), (drop (S i) l). split; [symmetry; apply take_drop_middle; exact H|]. apply take_length_le. apply lookup_lt_Some in H. lia. Qed.
  Lemma insert_mid {A} (l1 l2 : list A) x y : <[length l1 := y]> (l1 ++ x :: l2) = l1 ++ y :: l2.
  Proof. replace (length l1) with (length l1 + 0)%nat by lia. rewrite insert_app_r. reflexivity. Qed.

  (** the bytes of an object other than the one created or destroyed *)
  Lemma tl_bytes s L ks objs f i k o p n t x : tracks s L -> (forall b c, (b, c) ∈ tl (fun _ => Some f) ks objs -> (b, c) ∈ L) -> Forall2 obj_ok ks objs ->
    ks !! i = Some (k, true) -> objs !! i = Some o -> (p, n, t) ∈ object_blocks k o -> p <= x < p + n -> bytes s x = f x.
  Proof.
    intros T Sub F Hk Ho Hb Hx. destruct (split_at _ _ _ Hk) as (K1 & K2 & -> & L1). destruct (split_at _ _ _ Ho) as (O1 & O2 & -> & L2).
    assert (G : obj_ok (k, true) o) by (eapply Forall2_lookup_lr; eassumption). destruct G as (_ & _ & G). cbn [fst snd] in G. destruct (blocks_at _ _ _ _ _ Hb) as (j & q & H1 & H2 & ->).
    destruct T as (b & _ & _ & _ & H). apply (H p q.1.1 q.1.2 f x); [|exact Hx]. apply Sub. rewrite tl_app by lia. apply elem_of_app. right. apply elem_of_app. left. unfold tl1. cbn [fst snd].
    clear -H1 H2 Hx G. revert j H1 H2. induction G as [|p' q' ps qs Hpq G IH]; intros j Hp Hq; [discriminate|]. cbn [pblocks]. apply elem_of_app. destruct j as [|j]; cbn in Hp, Hq.
    - left. injection Hp as ->. injection Hq as ->. unfold mk. rewrite decide_False by (intros E; apply Hpq in E; lia). left.
    - right. eapply IH; eassumption.
  Qed.

  Lemma life_step_ok s ks objs op : life_inv s ks objs -> lifeop_ok ks op ->
    exists s' objs', life_step malloc dc ord (s, objs) op = Ret (s', objs') /\ life_inv s' (next_objects ks op) objs' /\
      (forall i k o p n t x, ks !! i = Some (k, true) -> objs !! i = Some o -> (forall opt, op <> Destroy opt i) -> (p, n, t) ∈ object_blocks k o -> p <= x < p + n ->
         objs' !! i = Some o /\ bytes s' x = bytes s x) /\
      (forall k, op = Create k -> exists o, objs' = objs ++ [o] /\ forall j p q x, pointers o !! j = Some p -> parts k !! j = Some q -> q.2 = true -> p <= x < p + q.1.1 -> bytes s' x = 0).
  Proof using Hm Hnf Hord.
    intros [T F] Hop. pose proof (Forall2_length _ _ _ F) as HL. pose proof (tracks_now _ _ _ T) as Tn. destruct op as [k|opt i]; cbn [lifeop_ok life_step] in *.
    - change (next_objects ks (Create k)) with (ks ++ [(k, true)]). destruct (create_ok s _ k Hop Tn) as (s' & o & E & T' & G & Ok). rewrite E. cbn [obind]. eexists s', _. split; [reflexivity|]. split; [split|split].
      + refine (tracks_blocks s' _ _ _ _ T'). rewrite tl_app by exact HL. unfold tl1. cbn [fst snd]. change (tl none_c [] []) with (@nil tblock). rewrite app_nil_r, !fmap_app.
        rewrite (tl_fst (fun _ => Some (bytes s)) none_c), (pblocks_fst zc none_c). apply Permutation_app_comm.
      + apply Forall2_app; [exact F|]. repeat constructor; assumption.
      + intros i k' o' p n t x Hi Ho _ Hb Hx. split; [apply lookup_app_l_Some; exact Ho|]. eapply (tl_bytes s' _ ks objs (bytes s)); [exact T'| |exact F|exact Hi|exact Ho|exact Hb|exact Hx]. intros b c Hin. apply elem_of_app. right. exact Hin.
      + intros k' [= <-]. exists o. split; [reflexivity|]. intros j p q x Hp Hq Hz Hx. apply (tracks_bytes s' _ zc k o T' G j p q (fun _ => 0) x Hp Hq); [rewrite Hz; reflexivity|exact Hx].
    - destruct Hop as (k & a & Hk & Ha). destruct (Forall2_lookup_l _ _ _ _ _ F Hk) as (o & Ho & (Ok1 & Ok2 & Ok3)). cbn [fst snd] in *. rewrite Ho.
      destruct (split_at _ _ _ Hk) as (K1 & K2 & -> & L1). destruct (split_at _ _ _ Ho) as (O1 & O2 & -> & L2).
      assert (Hsame : tl1 (fun _ => Some (bytes s)) (k, a) o = pblocks (fun _ => Some (bytes s)) (pointers o) (parts k)).
      { unfold tl1. cbn [fst snd]. destruct a; [reflexivity|]. destruct Ha as [Ha|Ha]; [discriminate|]. specialize (Ok3 Ha). pose proof (null_pointers k) as Np. rewrite <- Ok3 in Np. clear -Np. revert Np. generalize (pointers o), (parts k). induction l as [|q l IH]; intros [|r l'] Z; try reflexivity.
        apply Forall_cons in Z as [-> Z]. cbn [pblocks]. unfold mk. rewrite decide_True by reflexivity. apply IH. exact Z. }
      rewrite tl_app, Hsame in Tn by lia.
      destruct (destroy_ok opt s (tl (fun _ => Some (bytes s)) K1 O1 ++ tl (fun _ => Some (bytes s)) K2 O2) k o (fun _ => Some (bytes s)) Ok1 Ok2) as (s' & o' & E & T' & Ok' & Z').
      { refine (tracks_perm _ _ _ _ Tn). apply Permutation_app_swap_app. }
      pose proof (fun Hu => destroy_null opt _ _ _ _ _ Ok2 Hu E) as Z2. clear Z'. rename Z2 into Z'. rewrite E. cbn [obind].
      assert (I1 : <[i := o']> (O1 ++ o :: O2) = O1 ++ o' :: O2) by (rewrite <- L2; apply insert_mid).
      assert (I2 : next_objects (K1 ++ (k, a) :: K2) (Destroy opt i) = K1 ++ (k, false) :: K2) by (unfold next_objects; rewrite Hk, <- L1; exact (insert_mid K1 K2 (k, a) (k, false))).
      rewrite I1, I2. eexists s', _. split; [reflexivity|]. split; [split|split].
      + refine (tracks_blocks s' _ _ _ _ T'). rewrite tl_app by lia. unfold tl1. cbn [fst snd app]. rewrite !fmap_app, !(tl_fst (fun _ => Some (bytes s)) none_c). reflexivity.
      + apply Forall2_app_inv in F as [F1 F2]; [|lia]. apply Forall2_cons in F2 as [_ F2]. apply Forall2_app; [exact F1|]. apply Forall2_cons. split; [|exact F2]. split; [exact Ok1|]. split; [exact Ok'|]. cbn [fst snd]. exact Z'.
      + intros i' k' o1 p n t x Hi' Ho' Hne Hb Hx. assert (i' <> i) by (intros ->; exact (Hne opt eq_refl)).
        assert (Hlook : forall (A : Type) (A1 A2 : list A) y y', length A1 = i -> (A1 ++ y :: A2) !! i' = (A1 ++ y' :: A2) !! i').
        { intros A A1 A2 y y' HA. rewrite !lookup_app. destruct (A1 !! i') eqn:EA; [reflexivity|]. apply lookup_ge_None in EA. destruct (i' - length A1)%nat eqn:Ed; [lia|reflexivity]. }
        split; [rewrite <- (Hlook _ O1 O2 o o' L2); exact Ho'|].
        assert (Hi2 : (K1 ++ (k, false) :: K2) !! i' = Some (k', true)) by (etransitivity; [symmetry; exact (Hlook _ K1 K2 (k, a) (k, false) L1)|exact Hi']). clear Hi'. rename Hi2 into Hi'.
        apply Forall2_app_inv in F as [F1 F2]; [|lia]. apply Forall2_cons in F2 as [_ F2].
        eapply (tl_bytes s' _ (K1 ++ (k, false) :: K2) (O1 ++ o' :: O2) (bytes s)); [exact T'| | |exact Hi'|rewrite <- (Hlook _ O1 O2 o o' L2); exact Ho'|exact Hb|exact Hx].
        * intros b c. rewrite tl_app by lia. unfold tl1. cbn [fst snd app]. tauto.
        * apply Forall2_app; [exact F1|]. apply Forall2_cons. split; [|exact F2]. split; [exact Ok1|]. split; [exact Ok'|]. cbn [fst snd]. exact Z'.
      + discriminate.
  Qed.

  Lemma life_run_ok ops : forall s ks objs, life_inv s ks objs -> life_ok ks ops ->
    exists s' objs', life_run malloc dc ord (s, objs) ops = Ret (s', objs') /\ life_inv s' (fold_left next_objects ops ks) objs'.
  Proof using Hm Hnf Hord.
    induction ops as [|op ops IH]; intros s ks objs I Hok; cbn [life_run fold_left].
    - eauto.
    - destruct Hok as [H1 H2]. destruct (life_step_ok s ks objs op I H1) as (s' & objs' & E & I' & _). rewrite E. cbn [obind]. apply IH; assumption.
  Qed.
  Lemma life_inv0 : life_inv mem0 [] [].
  Proof using. split; [apply tracks0|constructor]. Qed.
  Lemma life_reach ks s objs : reachable_life malloc dc ord ks s objs -> life_inv s ks objs.
  Proof using Hm Hnf Hord.
    intros (ops & Hok & -> & E). destruct (life_run_ok ops mem0 [] [] life_inv0 Hok) as (s' & objs' & E' & I). rewrite E in E'. injection E' as -> ->. exact I.
  Qed.
  Lemma life_final ks s objs : life_inv s ks objs ->
    length objs = length ks /\ heap s ≡ₚ (live_blocks ks objs).*1 /\
    (forall i j b b', i <> j -> live_blocks ks objs !! i = Some b -> live_blocks ks objs !! j = Some b' -> b.1.1 + b.1.2 <= b'.1.1 \/ b'.1.1 + b'.1.2 <= b.1.1) /\
    (forall p n t, (p, n, t) ∈ live_blocks ks objs -> size_bytes s p = n /\ get_dynamic_memory_type s p = t) /\
    (forall t, allocation_count s t - deallocation_count s t = Z.of_nat (length (filter (fun b => b.2 = t) (live_blocks ks objs)))).
  Proof using Hm Hnf.
    intros [(b & A & Fb & E & _) F]. split; [symmetry; eapply Forall2_length; exact F|]. rewrite (tl_blocks none_c _ _ F) in E. pose proof (sr_heap _ _ (proj1 A)) as Hh. pose proof (sr_hrep _ _ (proj1 A)) as Hr.
    assert (P : heap s ≡ₚ (live_blocks ks objs).*1) by (rewrite Hh, E; reflexivity). split; [exact P|]. split; [|split].
    - pose proof (hrep_perm _ _ P Hr) as R. intros i j [[p n] t] [[p' n'] t'] Hij Hi Hj. cbn [fst snd].
      assert (Hi' : (live_blocks ks objs).*1 !! i = Some (p, n)) by (rewrite list_lookup_fmap, Hi; reflexivity).
      assert (Hj' : (live_blocks ks objs).*1 !! j = Some (p', n')) by (rewrite list_lookup_fmap, Hj; reflexivity).
      destruct (hr_disj _ R p n p' n') as [Heq|D]; [eapply elem_of_list_lookup_2; exact Hi'|eapply elem_of_list_lookup_2; exact Hj'| |exact D].
      exfalso. apply Hij. rewrite <- Heq in Hj'. eapply NoDup_lookup; [exact (hr_nodup _ R)|exact Hi'|exact Hj'].
    - intros p n t Hin. rewrite <- E in Hin. exact (size_bytes_live malloc Hm Hnf s b p n t A Hin).
    - intros t. rewrite (count_live s b t A). unfold live_count. rewrite E. reflexivity.
  Qed.
  Lemma life_history ops : life_ok [] ops ->
    exists s objs, let ks := objects_after ops in life_run malloc dc ord (mem0, []) ops = Ret (s, objs) /\ length objs = length ks /\ heap s ≡ₚ (live_blocks ks objs).*1 /\
    (forall i j b b', i <> j -> live_blocks ks objs !! i = Some b -> live_blocks ks objs !! j = Some b' -> b.1.1 + b.1.2 <= b'.1.1 \/ b'.1.1 + b'.1.2 <= b.1.1) /\
    (forall p n t, (p, n, t) ∈ live_blocks ks objs -> size_bytes s p = n /\ get_dynamic_memory_type s p = t) /\
    (forall t, allocation_count s t - deallocation_count s t = Z.of_nat (length (filter (fun b => b.2 = t) (live_blocks ks objs)))).
  Proof using Hm Hnf Hord.
    intros Hok. destruct (life_run_ok ops mem0 [] [] life_inv0 Hok) as (s & objs & E & I). exists s, objs. split; [exact E|]. apply life_final. exact I.
  Qed.
  Lemma dead_blocks ks objs : Forall (fun k => k.2 = false) ks -> live_blocks ks objs = [].
  Proof using. intros H. revert objs. induction H as [|k ks Hk H IH]; intros [|o objs]; try reflexivity. rewrite live_cons, Hk, IH. reflexivity. Qed.
  Lemma life_all_destroyed ops : life_ok [] ops -> Forall (fun k => k.2 = false) (objects_after ops) ->
    exists s objs, life_run malloc dc ord (mem0, []) ops = Ret (s, objs) /\ heap s = [] /\ forall t, allocation_count s t = deallocation_count s t.
  Proof using Hm Hnf Hord.
    intros Hok HF. destruct (life_history ops Hok) as (s & objs & E & _ & P & _ & _ & C). exists s, objs. split; [exact E|]. rewrite (dead_blocks _ objs HF) in *. split; [apply Permutation_nil; symmetry; exact P|].
    intros t. specialize (C t). cbn in C. lia.
  Qed.
  Lemma life_others ks s objs op : reachable_life malloc dc ord ks s objs -> lifeop_ok ks op ->
    exists s' objs', life_step malloc dc ord (s, objs) op = Ret (s', objs') /\
      (forall i k o p n t x, ks !! i = Some (k, true) -> objs !! i = Some o -> (forall opt, op <> Destroy opt i) -> (p, n, t) ∈ object_blocks k o -> p <= x < p + n ->
         objs' !! i = Some o /\ bytes s' x = bytes s x) /\
      (forall k, op = Create k -> exists o, objs' = objs ++ [o] /\ forall j p q x, pointers o !! j = Some p -> parts k !! j = Some q -> q.2 = true -> p <= x < p + q.1.1 -> bytes s' x = 0).
  Proof using Hm Hnf Hord.
    intros R Hop. destruct (life_step_ok s ks objs op (life_reach _ _ _ R) Hop) as (s' & objs' & E & _ & H). exists s', objs'. split; [exact E|exact H].
  Qed.
  Lemma life_again ks s objs i k opt : reachable_life malloc dc ord ks s objs -> ks !! i = Some (k, false) -> is_unordered k = false ->
    life_step malloc dc ord (s, objs) (Destroy opt i) = Ret (s, objs).
  Proof using Hm Hnf Hord.
    intros R Hi Hu. destruct (life_reach _ _ _ R) as [(b & A & _) F]. destruct (Forall2_lookup_l _ _ _ _ _ F Hi) as (o & Ho & (Ok1 & Ok2 & Ok3)). cbn [fst snd] in *. rewrite (Ok3 Hu) in Ho. cbn [life_step]. rewrite Ho.
    rewrite (null_again opt s b k Ok1 Hu A). cbn [obind]. rewrite (list_insert_id _ _ _ Ho). reflexivity.
  Qed.
End life.
