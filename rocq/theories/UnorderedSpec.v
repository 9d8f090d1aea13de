(** Specification of unordered_map / unordered_set used by one caller: a finite set of values with distinct keys. *)
From Verif Require Import Base VectorModel UnorderedModel.

Section spec.
  Context {K V : Type} (kf : V -> K) (keq : K -> K -> bool).
  (** the number bucket(key) returns, and the numbers bucket_count() and max_size() return *)
  Context (bucket : K -> Z) (bucket_count max_size : Z).

  (** a value with an equal key is stored *)
  Definition holds (M : list V) (k : K) : Prop := exists v, v ∈ M /\ keq (kf v) k = true.
  (** no two stored values have equal keys *)
  Definition keys_distinct (M : list V) : Prop :=
    forall i j v w, M !! i = Some v -> M !! j = Some w -> keq (kf v) (kf w) = true -> i = j.

  (** with content [M] (in any order), the call may return [r] and leave content [M'].  Whether an insert of a new key is accepted
      is the subject of C35. *)
  Definition spec_insert (M : list V) (v : V) (ok : bool) (o : option V) (M' : list V) : Prop :=
    if ok then ~ holds M (kf v) /\ o = Some v /\ M' ≡ₚ v :: M else o = None /\ M' ≡ₚ M.
  Definition spec_erase (M : list V) (k : K) (n : Z) (M' : list V) : Prop :=
    (holds M k -> n = 1 /\ exists v, keq (kf v) k = true /\ M ≡ₚ v :: M' /\ ~ holds M' k) /\
    (~ holds M k -> n = 0 /\ M' ≡ₚ M).
  Fixpoint spec_inserts (M : list V) (vs : list V) (M' : list V) : Prop :=
    match vs with [] => M' ≡ₚ M | v :: vs => exists ok o M1, spec_insert M v ok o M1 /\ spec_inserts M1 vs M' end.
  Fixpoint spec_erases (M : list V) (ks : list K) (M' : list V) : Prop :=
    match ks with [] => M' ≡ₚ M | k :: ks => exists n M1, spec_erase M k n M1 /\ spec_erases M1 ks M' end.

  Definition spec_ustep (M : list V) (op : uop K V) (r : ures V) (M' : list V) : Prop :=
    match op, r with
    | UInsert v, UIns ok o => spec_insert M v ok o M'
    | UErase k, UNum n => spec_erase M k n M'
    | UFind k, UFound (Some v) => v ∈ M /\ keq (kf v) k = true /\ M' ≡ₚ M
    | UFind k, UFound None => ~ holds M k /\ M' ≡ₚ M
    | UContains k, UBool b => (b = true <-> holds M k) /\ M' ≡ₚ M
    | UCount k, UNum n => (holds M k -> n = 1) /\ (~ holds M k -> n = 0) /\ M' ≡ₚ M
    | UClear, UUnit => M' = []
    | USize, UNum n => n = Z.of_nat (length M) /\ M' ≡ₚ M
    | UEmpty, UBool b => (b = true <-> M = []) /\ M' ≡ₚ M
    | UFull, UBool b => (b = true <-> Z.of_nat (length M) = max_size) /\ M' ≡ₚ M
    | UMaxSize, UNum n => n = max_size /\ Z.of_nat (length M) <= max_size /\ M' ≡ₚ M
    | UBucketSize n, UNum m => m = Z.of_nat (length (filter (fun v => bucket (kf v) = n) M)) /\ M' ≡ₚ M
    | URange, UList l => l ≡ₚ M /\ M' ≡ₚ M
    | UValid, UBool b => b = true /\ M' ≡ₚ M
    | UInsertRange vs, UUnit => exists vs', vs' ≡ₚ vs /\ spec_inserts M vs' M'
    | UEraseRange ks, UUnit => exists ks', ks' ≡ₚ ks /\ spec_erases M ks' M'
    | _, _ => False
    end.
  Fixpoint spec_urun (M : list V) (ops : list (uop K V)) (rs : list (ures V)) (M' : list V) : Prop :=
    match ops, rs with
    | [], [] => M' ≡ₚ M
    | op :: ops, r :: rs => exists M1, spec_ustep M op r M1 /\ spec_urun M1 ops rs M'
    | _, _ => False
    end.
  (** the only call with a contract on its argument *)
  Definition uop_ok (op : uop K V) : Prop := match op with UBucketSize n => 0 <= n < bucket_count | _ => True end.

  (** results agree; the elements of a device_range() in any order *)
  Definition same_ures (r r' : ures V) : Prop := match r, r' with UList l, UList l' => l ≡ₚ l' | _, _ => r = r' end.
End spec.

(** _key_equal is an equivalence; _hash gives equal keys equal values (std requirement on the two functors); the
    iterations of a parallel loop run in some order *)
Definition key_equality {K} (keq : K -> K -> bool) : Prop :=
  (forall a, keq a a = true) /\ (forall a b, keq a b = true -> keq b a = true) /\ (forall a b c, keq a b = true -> keq b c = true -> keq a c = true).
Definition hash_respects {K} (keq : K -> K -> bool) (hash : K -> Z) : Prop := forall a b, keq a b = true -> hash a = hash b.
Definition any_order (ord : nat -> list nat) : Prop := forall n, ord n ≡ₚ seq 0 n.
(** bucket_count() and the number of further entries of a container createDeviceObject can make *)
Definition sizes_ok (buckets excess : nat) : Prop := (0 < buckets)%nat /\ (0 < excess)%nat /\ Z.of_nat (buckets + excess) <= INT_MAX.
(** number of values stored in a bucket that another value of the list maps to as well *)
Definition collisions {V} (bucket : V -> Z) (vs : list V) : nat := (length vs - length (remove_dups (bucket <$> vs)))%nat.
(** a reachable container: [u] after some calls on the new container [u0] *)
Definition reachable {K V} (kf : V -> K) (hash : K -> Z) (keq : K -> K -> bool) (opt : bool) (ord : nat -> list nat) (fuel : nat) (buckets excess : nat) (u0 u : utab V) : Prop :=
  exists junk (ops : list (uop K V)) rs, Forall (uop_ok (Z.of_nat buckets)) ops /\ unordered_create ord junk (Z.of_nat buckets) (Z.of_nat excess) = Ret u0 /\ u_run kf hash keq opt ord fuel u0 ops = Ret (u, rs).
