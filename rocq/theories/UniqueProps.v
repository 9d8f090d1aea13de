(** device_unique_object (C70). *)
From Verif Require Import Base BitModel VectorModel UnorderedModel MemoryModel MemorySpec MemoryFinalProofs ContainerMemModel ContainerMemSpec UniqueModel UniqueSpec UniqueProofs.

(** C70: for every program that declares, moves and leaves the scope of device_unique_object variables in any order, no operation is undefined; every
    object is held by exactly the variable that owns it, an object without owner has been destroyed exactly once and no other object
    has been destroyed; the blocks of the allocator are exactly those of the objects held. *)
Theorem C70_one_owner : forall malloc, malloc_ok malloc -> never_fails malloc -> forall dc ord, (forall n, ord n ≡ₚ seq 0 n) ->
  forall ops, unique_ok [] ops ->
  exists st, unique_run malloc dc ord unique0 ops = Ret st /\
    (forall v id, (exists o, up_vars st !! v = Some (Holds (Some (id, o)))) <-> owners ops !! id = Some (Some v)) /\
    (forall id, id ∈ up_destroyed st <-> owners ops !! id = Some None) /\ NoDup (up_destroyed st) /\
    length (owners ops) = length (created ops) /\ up_created st = length (created ops) /\
    heap (up_mem st) ≡ₚ (held_blocks (created ops) (up_vars st)).*1 /\
    (forall p n t, (p, n, t) ∈ held_blocks (created ops) (up_vars st) -> size_bytes (up_mem st) p = n /\ get_dynamic_memory_type (up_mem st) p = t) /\
    (forall t, allocation_count (up_mem st) t - deallocation_count (up_mem st) t = Z.of_nat (length (filter (fun b => b.2 = t) (held_blocks (created ops) (up_vars st))))).
Proof. exact unique_history. Qed.
(** when all variables have left their scopes, every object has been destroyed exactly once and nothing is allocated any more *)
Theorem C70_no_leak : forall malloc, malloc_ok malloc -> never_fails malloc -> forall dc ord, (forall n, ord n ≡ₚ seq 0 n) ->
  forall ops, unique_ok [] ops -> Forall (fun b => b = false) (scopes ops) ->
  exists st, unique_run malloc dc ord unique0 ops = Ret st /\ heap (up_mem st) = [] /\ up_destroyed st ≡ₚ seq 0 (length (created ops)) /\
    forall t, allocation_count (up_mem st) t = deallocation_count (up_mem st) t.
Proof. exact unique_all_ended. Qed.
(** an object that is held after an operation was held before it (or created by it), is the same handle, and its memory is unchanged *)
Theorem C70_objects_survive_moves : forall malloc, malloc_ok malloc -> never_fails malloc -> forall dc ord, (forall n, ord n ≡ₚ seq 0 n) ->
  forall ops st op, reachable_unique malloc dc ord ops st -> uop_ok (scopes ops) op ->
  exists st', unique_step malloc dc ord st op = Ret st' /\
    forall v' id o k p n t x, up_vars st' !! v' = Some (Holds (Some (id, o))) -> (id < length (created ops))%nat -> created ops !! id = Some k ->
      (p, n, t) ∈ object_blocks k o -> p <= x < p + n -> (exists v, up_vars st !! v = Some (Holds (Some (id, o)))) /\ bytes (up_mem st') x = bytes (up_mem st) x.
Proof. exact unique_one_step. Qed.
(** v = std::move(v) changes nothing *)
Theorem C70_self_move : forall malloc, malloc_ok malloc -> never_fails malloc -> forall dc ord, (forall n, ord n ≡ₚ seq 0 n) ->
  forall ops st i, reachable_unique malloc dc ord ops st -> scopes ops !! i = Some true -> unique_step malloc dc ord st (UMoveAssign i i) = Ret st.
Proof. exact unique_self_move. Qed.
(** operator bool tells whether the variable owns an object; dereferencing it is defined exactly then *)
Theorem C70_bool_and_dereference : forall malloc, malloc_ok malloc -> never_fails malloc -> forall dc ord, (forall n, ord n ≡ₚ seq 0 n) ->
  forall ops st v, reachable_unique malloc dc ord ops st -> scopes ops !! v = Some true ->
  exists x, up_vars st !! v = Some x /\ unique_bool x = Ret (bool_decide (Some v ∈ owners ops)) /\ ((exists o, unique_deref x = Ret o) <-> Some v ∈ owners ops).
Proof.
  intros malloc Hm Hnf dc ord Ho ops st v R Hv. pose proof (unique_reach malloc Hm Hnf dc ord Ho _ _ R) as I. destruct (scope_at _ _ _ (ui_sc _ _ _ _ I) Hv) as [p Hp].
  exists (Holds p). split; [exact Hp|]. assert (A : (exists id o, p = Some (id, o)) <-> Some v ∈ owners ops).
  { rewrite elem_of_list_lookup. split.
    - intros (id & o & ->). exists id. apply (ui_held _ _ _ _ I). eauto.
    - intros [id H]. apply (ui_held _ _ _ _ I) in H as [o H]. rewrite Hp in H. injection H as ->. eauto. }
  destruct p as [[id o]|]; cbn.
  - assert (H : Some v ∈ owners ops) by (apply A; eauto). rewrite bool_decide_eq_true_2 by exact H. split; [reflexivity|]. split; [intros _; exact H|eauto].
  - assert (H : Some v ∉ owners ops) by (intros H; apply A in H as (id & o & H); discriminate). rewrite bool_decide_eq_false_2 by exact H. split; [reflexivity|]. split; [intros [o' H']; discriminate|intros H'; exfalso; auto].
Qed.
Print Assumptions C70_one_owner.
Print Assumptions C70_no_leak.
Print Assumptions C70_objects_survive_moves.
Print Assumptions C70_self_move.
Print Assumptions C70_bool_and_dereference.

(** a program: v0 makes a vector, v1 an unordered container, v2 takes over from v0, v1 = std::move(v2) (destroys the container), v3 is empty, v0 leaves its scope *)
Definition c70_ops : list uop := [UMake (KVector 8 3); UMake (KUnordered 8 1); UMoveNew 0; UMoveAssign 1 2; UNull; UMoveAssign 1 1; UScopeEnd 0].
Example C70_ex : unique_ok [] c70_ops /\ owners c70_ops = [Some 1%nat; None] /\ scopes c70_ops = [false; true; true; true] /\
  unique_ok [] (c70_ops ++ [UScopeEnd 3; UScopeEnd 1; UScopeEnd 2]) /\ Forall (fun b => b = false) (scopes (c70_ops ++ [UScopeEnd 3; UScopeEnd 1; UScopeEnd 2])).
Proof.
  split; [|split; [reflexivity|split; [reflexivity|split]]]; [| |repeat constructor];
    cbn [unique_ok c70_ops app scopes_next uop_ok]; unfold kind_ok, size_ok, INT_MAX; repeat split; try lia; reflexivity.
Qed.
Example C70_ex_run : exists st, unique_run first_fit true (seq 0) unique0 c70_ops = Ret st /\ up_destroyed st = [1%nat] /\ length (heap (up_mem st)) = 4%nat.
Proof.
  assert (C : (match unique_run first_fit true (seq 0) unique0 c70_ops with Ret st => bool_decide (up_destroyed st = [1%nat]) && (length (heap (up_mem st)) =? 4)%nat | _ => false end) = true) by (vm_compute; reflexivity).
  destruct (unique_run first_fit true (seq 0) unique0 c70_ops) as [st| |]; try discriminate. exists st. split; [reflexivity|]. apply andb_true_iff in C as [C1 C2]. split; [exact (bool_decide_eq_true_1 _ C1)|apply Nat.eqb_eq; exact C2].
Qed.
