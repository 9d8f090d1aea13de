(** Memory of the containers over whole histories (C60, C61). *)
From Verif Require Import Base BitModel VectorModel UnorderedModel MemoryModel MemorySpec MemoryFinalProofs ContainerMemModel ContainerMemSpec ContainerMemProofs ContainerMemFinal.

Lemma run_check (x : outcome (mem * list object)) f : (match x with Ret (s, o) => f s o | _ => false end) = true -> exists s o, x = Ret (s, o) /\ f s o = true.
Proof. destruct x as [[s o]| |]; try discriminate. eauto. Qed.

(** C60: for every history of creations and destructions of atomics, bitsets, mutex arrays, vectors, deques, queues, stacks, unordered maps
    and sets, and of arrays (inside their contracts, no allocation failing), no call is undefined, and at the end the blocks of the
    allocator are exactly those of the objects that are alive: pairwise disjoint, each with the size and type the object needs,
    and allocation_count - deallocation_count is their number. *)
Theorem C60_blocks_of_the_live_objects : forall malloc, malloc_ok malloc -> never_fails malloc -> forall dc ord, (forall n, ord n ≡ₚ seq 0 n) ->
  forall ops, life_ok [] ops ->
  exists s objs, let ks := objects_after ops in life_run malloc dc ord (mem0, []) ops = Ret (s, objs) /\ length objs = length ks /\ heap s ≡ₚ (live_blocks ks objs).*1 /\
    (forall i j b b', i <> j -> live_blocks ks objs !! i = Some b -> live_blocks ks objs !! j = Some b' -> b.1.1 + b.1.2 <= b'.1.1 \/ b'.1.1 + b'.1.2 <= b.1.1) /\
    (forall p n t, (p, n, t) ∈ live_blocks ks objs -> size_bytes s p = n /\ get_dynamic_memory_type s p = t) /\
    (forall t, allocation_count s t - deallocation_count s t = Z.of_nat (length (filter (fun b => b.2 = t) (live_blocks ks objs)))).
Proof. exact life_history. Qed.
(** no leak: if every object has been destroyed, nothing is allocated any more *)
Theorem C60_no_leak : forall malloc, malloc_ok malloc -> never_fails malloc -> forall dc ord, (forall n, ord n ≡ₚ seq 0 n) ->
  forall ops, life_ok [] ops -> Forall (fun k => k.2 = false) (objects_after ops) ->
  exists s objs, life_run malloc dc ord (mem0, []) ops = Ret (s, objs) /\ heap s = [] /\ forall t, allocation_count s t = deallocation_count s t.
Proof. exact life_all_destroyed. Qed.
(** creating or destroying one object leaves the pointers and the memory of every other object as they are; the occupancy bits, lock bits,
    counters and offsets of a new object are zero *)
Theorem C60_other_objects_untouched : forall malloc, malloc_ok malloc -> never_fails malloc -> forall dc ord, (forall n, ord n ≡ₚ seq 0 n) ->
  forall ks s objs op, reachable_life malloc dc ord ks s objs -> lifeop_ok ks op ->
  exists s' objs', life_step malloc dc ord (s, objs) op = Ret (s', objs') /\
    (forall i k o p n t x, ks !! i = Some (k, true) -> objs !! i = Some o -> (forall opt, op <> Destroy opt i) -> (p, n, t) ∈ object_blocks k o -> p <= x < p + n ->
       objs' !! i = Some o /\ bytes s' x = bytes s x) /\
    (forall k, op = Create k -> exists o, objs' = objs ++ [o] /\ forall j p q x, pointers o !! j = Some p -> parts k !! j = Some q -> q.2 = true -> p <= x < p + q.1.1 -> bytes s' x = 0).
Proof. exact life_others. Qed.
Print Assumptions C60_blocks_of_the_live_objects.
Print Assumptions C60_no_leak.
Print Assumptions C60_other_objects_untouched.

(** C61: destroying an object a second time, at any later time, changes nothing (all kinds but the unordered containers). *)
Theorem C61_destroy_again_partial : forall malloc, malloc_ok malloc -> never_fails malloc -> forall dc ord, (forall n, ord n ≡ₚ seq 0 n) ->
  forall ks s objs i k opt, reachable_life malloc dc ord ks s objs -> ks !! i = Some (k, false) -> is_unordered k = false ->
  life_step malloc dc ord (s, objs) (Destroy opt i) = Ret (s, objs).
Proof. exact life_again. Qed.
Print Assumptions C61_destroy_again_partial.
(** Refuted for unordered_map and unordered_set: their destroyDeviceObject leaves three pointers as they are; if a second container has
    meanwhile been given that memory, destroying the first one again frees the memory of the second, which is still alive. *)
Definition c61_ops : list lifeop := [Create (KUnordered 8 1); Destroy true 0; Create (KUnordered 8 1)].
Theorem C61_unordered_destroyed_twice_refuted : exists s objs o b, life_ok [] c61_ops /\ objects_after c61_ops = [(KUnordered 8 1, false); (KUnordered 8 1, true)] /\
  life_run first_fit true (seq 0) (mem0, []) (c61_ops ++ [Destroy true 0]) = Ret (s, objs) /\
  objs !! 1%nat = Some o /\ b ∈ object_blocks (KUnordered 8 1) o /\ b.1 ∉ heap s /\ size_bytes s b.1.1 = 0.
Proof.
  destruct (run_check (life_run first_fit true (seq 0) (mem0, []) (c61_ops ++ [Destroy true 0]))
    (fun s objs => match objs !! 1%nat with Some o => existsb (fun b => bool_decide (b.1 ∉ heap s) && (size_bytes s b.1.1 =? 0)) (object_blocks (KUnordered 8 1) o) | None => false end)) as (s & objs & E & C); [vm_compute; reflexivity|].
  destruct (objs !! 1%nat) as [o|] eqn:Ho; [|discriminate]. apply existsb_exists in C as (b & Hb & C). apply andb_true_iff in C as [C1 C2]. apply bool_decide_eq_true in C1. apply Z.eqb_eq in C2.
  exists s, objs, o, b. split; [|split; [reflexivity|split; [exact E|split; [exact Ho|split; [apply elem_of_list_In; exact Hb|split; [exact C1|exact C2]]]]]].
  cbn [life_ok c61_ops next_objects lifeop_ok]. unfold kind_ok, size_ok. repeat split; try lia. eexists _, _. split; [reflexivity|]. left. reflexivity.
Qed.
(** a history that meets the hypotheses: one object of every kind, two of them destroyed, one of those twice; it leaves 28 blocks *)
Definition c60_ops : list lifeop :=
  [Create (KAtomic 4); Create (KBitset 64 65); Create (KMutexes 32 0); Create (KVector 8 3); Create (KDeque 1 2); Destroy true 3; Create (KAdapter 16 2); Create (KUnordered 8 2);
   Destroy false 3; Create (KDeviceArray 2 3 [7; 9]); Create (KHostArray 1 2 [5]); Destroy false 7].
Example C60_ex : life_ok [] c60_ops /\ (exists s objs, life_run first_fit false (seq 0) (mem0, []) c60_ops = Ret (s, objs) /\ length (live_blocks (objects_after c60_ops) objs) = 28%nat /\
  allocation_count s device - deallocation_count s device = 27 /\ allocation_count s host - deallocation_count s host = 1 /\ allocation_count s host = 3).
Proof.
  split.
  - cbn [life_ok c60_ops next_objects lifeop_ok]. unfold kind_ok, size_ok, INT_MAX. repeat split; try lia; try (eexists _, _; split; [reflexivity|]; cbn; auto).
  - destruct (run_check (life_run first_fit false (seq 0) (mem0, []) c60_ops)
      (fun s objs => (length (live_blocks (objects_after c60_ops) objs) =? 28)%nat && (allocation_count s device - deallocation_count s device =? 27) && (allocation_count s host - deallocation_count s host =? 1) && (allocation_count s host =? 3))) as (s & objs & E & C); [vm_compute; reflexivity|].
    exists s, objs. split; [exact E|]. repeat apply andb_true_iff in C as [C ?]. split; [apply Nat.eqb_eq; exact C|]. repeat split; apply Z.eqb_eq; assumption.
Qed.
Example C60_malloc : malloc_ok first_fit /\ never_fails first_fit.
Proof. exact first_fit_ok. Qed.
