(** C87: the array functions construct and destroy every element exactly once. *)
From Verif Require Import Base LifeModel LifeSpec LifeProofs.

(** createHostArray and, in device-compiled code, createDeviceArray construct n objects, one per element, and destroy none *)
Theorem C87_create_constructs : forall (dc opt : bool) (ord : nat -> list nat), (forall n, ord n ≡ₚ seq 0 n) -> forall s n op, op = LCreateHost n \/ op = LCreateDevice n /\ dc = true ->
  exists a s', life_step dc opt ord s op = Ret s' /\ l_arrays s' = l_arrays s ++ [a] /\ length a = n /\ None ∉ a /\ omap id a ≡ₚ seq (l_next s) n /\
    l_next s' = (l_next s + n)%nat /\ l_destroyed s' = l_destroyed s.
Proof.
  intros dc opt ord H s n op Hop. destruct (created_array ord H s n) as (a & E & P & L & R). exists a. eexists. split.
  - destruct Hop as [->|[-> ->]]; cbn; unfold lcreate_host, lcreate_device; rewrite E; reflexivity.
  - cbn. repeat (split; [assumption || reflexivity|]). reflexivity.
Qed.
(** in any history of createHostArray, destroyHostArray and, in device-compiled code, createDeviceArray and destroyDeviceArray (with or without calls on arrays that
    are already destroyed), every object that was constructed is either held by one array at one place or destroyed, once *)
Theorem C87_each_element_once : forall (dc : bool) (ord : nat -> list nat), (forall n, ord n ≡ₚ seq 0 n) -> forall ops, (forall op, op ∈ ops -> creates_or_destroys dc op) -> names_ok 0 ops ->
  exists s, life_run dc false ord lives0 ops = Ret s /\ balanced_lives s.
Proof. intros dc ord H ops Hops Hn. apply (life_run_ok ord H dc ops lives0 0); [split; [reflexivity|intros a Ha; inversion Ha]|reflexivity|exact Hops|exact Hn]. Qed.
(** for types with a trivial destructor no call of any history is undefined, copies included, and no destructor is called *)
Theorem C87_trivial_destructors : forall (dc : bool) (ord : nat -> list nat), (forall n, ord n ≡ₚ seq 0 n) -> forall ops, names_ok 0 ops ->
  exists s, life_run dc true ord lives0 ops = Ret s /\ l_destroyed s = [].
Proof. intros dc ord H ops Hn. exact (life_run_trivial ord H dc ops lives0 0 eq_refl Hn). Qed.
(** refuted for code that is not compiled for the device (createDeviceArray in a .cpp file, CUDA or HIP): createDeviceArray fills the device array with the bytes
    of objects that it destroys before it returns ... *)
Theorem C87_destroyed_elements_refuted : forall (ord : nat -> list nat), (forall n, ord n ≡ₚ seq 0 n) -> forall n, exists s,
  life_run false false ord lives0 [LCreateDevice n] = Ret s /\ l_next s = n /\ l_destroyed s ≡ₚ seq 0 n /\ held s ≡ₚ seq 0 n.
Proof. exact host_compiled. Qed.
(** ... and destroyDeviceArray destroys them a second time *)
Theorem C87_destroyed_twice_refuted : forall (ord : nat -> list nat), (forall n, ord n ≡ₚ seq 0 n) -> forall n, exists s,
  life_run false false ord lives0 [LCreateDevice n; LDestroyDevice 0] = Ret s /\ l_next s = n /\ l_destroyed s ≡ₚ seq 0 n ++ seq 0 n.
Proof. exact host_compiled2. Qed.
(** refuted for copies: copyCreateHost2HostArray (the others alike) copies bytes; destroying the array and its copy destroys every element twice *)
Theorem C87_copies_refuted : forall (ord : nat -> list nat), (forall n, ord n ≡ₚ seq 0 n) -> forall dc n, exists s,
  life_run dc false ord lives0 [LCreateHost n; LCopyCreate 0 n; LDestroyHost 0; LDestroyHost 1] = Ret s /\ l_next s = n /\ l_destroyed s ≡ₚ seq 0 n ++ seq 0 n.
Proof. exact copied_twice. Qed.
Print Assumptions C87_create_constructs.
Print Assumptions C87_each_element_once.
Print Assumptions C87_trivial_destructors.
Print Assumptions C87_destroyed_elements_refuted.
Print Assumptions C87_destroyed_twice_refuted.
Print Assumptions C87_copies_refuted.

(** two arrays, the loops run backwards, the first one destroyed (twice): elements 2, 1, 0 destroyed and 3, 4 held *)
Example C87_ex : exists s, (forall op, op ∈ [LCreateDevice 3; LCreateHost 2; LDestroyDevice 0; LDestroyDevice 0] -> creates_or_destroys true op) /\
  names_ok 0 [LCreateDevice 3; LCreateHost 2; LDestroyDevice 0; LDestroyDevice 0] /\
  life_run true false (fun n => rev (seq 0 n)) lives0 [LCreateDevice 3; LCreateHost 2; LDestroyDevice 0; LDestroyDevice 0] = Ret s /\
  l_destroyed s = [0; 1; 2]%nat /\ l_arrays s = [[]; [Some 4%nat; Some 3%nat]].
Proof.
  eexists. split; [intros op Hop; repeat (apply elem_of_cons in Hop; destruct Hop as [->|Hop]; [exact eq_refl || exact Logic.I|]); inversion Hop|].
  split; [cbn; lia|]. split; [vm_compute; reflexivity|]. split; reflexivity.
Qed.
