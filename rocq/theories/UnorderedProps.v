(** Property theorems C31-C36, C40, C55 and the unordered part of C53: unordered_map / unordered_set, one caller at a time.
    Common hypotheses: _key_equal is an equivalence, _hash respects it (both demanded of the functors by the container), parallel loops
    run in any order [ord].  [fuel] bounds the retry loops of insert/erase: two iterations are enough. *)
From Verif Require Import Base Conc SlotModel Lifetime VectorModel BitModel HashProofs UnorderedModel UnorderedSpec UnorderedProofs CapacityProofs UnorderedSeqProofs.

(** C31 *)
Theorem C31_bucket_in_range : forall hash_value bucket_count, 0 < bucket_count <= INT_MAX ->
  exists r, fibonacci_hashing hash_value bucket_count = Ret r /\ 0 <= r < bucket_count.
Proof. exact fib_range. Qed.
Theorem C31_every_bucket_used : forall bucket_count m b, bucket_count = 2 ^ m -> 0 <= m <= 30 -> 0 <= b < bucket_count ->
  exists hash_value, 0 <= hash_value < 2 ^ 64 /\ fibonacci_hashing hash_value bucket_count = Ret b.
Proof. exact fib_onto. Qed.
(** ... and for the container: bucket() is defined for every key, below bucket_count(), and equal hash values give equal buckets *)
Theorem C31_bucket : forall (K V : Type) (hash : K -> Z) (u : utab V), 0 < u_bc u <= INT_MAX ->
  forall k, exists b, u_bucket hash u k = Ret b /\ 0 <= b < u_bc u /\ forall k', hash k' = hash k -> u_bucket hash u k' = Ret b.
Proof.
  intros K V hash u Hu k. destruct (fib_range (hash k) _ Hu) as (b & Eb & Hb). exists b. unfold u_bucket.
  assert (E : (let! r := fibonacci_hashing (hash k) (u_bc u) in require (0 <=? r) && (r <? u_bc u) in Ret r) = Ret b).
  { rewrite Eb. cbn [obind]. rewrite (proj2 (Z.leb_le _ _)) by lia. rewrite (proj2 (Z.ltb_lt _ _)) by lia. reflexivity. }
  split; [exact E|]. split; [exact Hb|]. intros k' ->. exact E.
Qed.
Print Assumptions C31_bucket_in_range.
Print Assumptions C31_every_bucket_used.
Print Assumptions C31_bucket.
Example C31_ex : fibonacci_hashing (2 ^ 64 - 1) 1000 = Ret 290 /\ fibonacci_hashing 12345 (2 ^ 30) = Ret 676018314 /\ fibonacci_hashing 77 1 = Ret 0.
Proof. vm_compute. auto. Qed.

(** C32: every sequence of calls runs without UB and without endless loop, the results are those of a set of values with distinct keys
    (UnorderedSpec.v), and the values in the entries are exactly that set. *)
Theorem C32_unordered_is_finite_map : forall (K V : Type) (kf : V -> K) (hash : K -> Z) (keq : K -> K -> bool) (opt : bool) (ord : nat -> list nat),
  key_equality keq -> hash_respects keq hash -> any_order ord -> forall buckets excess, sizes_ok buckets excess ->
  forall fuel, (2 <= fuel)%nat -> forall junk (ops : list (uop K V)), Forall (uop_ok (Z.of_nat buckets)) ops ->
  exists u0 u rs M (bucket : K -> Z), unordered_create ord junk (Z.of_nat buckets) (Z.of_nat excess) = Ret u0 /\
    u_run kf hash keq opt ord fuel u0 ops = Ret (u, rs) /\ (forall k, u_bucket hash u0 k = Ret (bucket k)) /\
    spec_urun kf keq bucket (Z.of_nat (buckets + excess)) [] ops rs M /\ keys_distinct kf keq M /\ (forall v, v ∈ M <-> exists p, u_value u p = Ret v).
Proof.
  intros. destruct (runs_as_map kf hash keq opt ord H H0 H1 _ _ H2 fuel H3 junk ops H4) as (u0 & u & rs & M & b & P). exists u0, u, rs, M, b. tauto.
Qed.
Print Assumptions C32_unordered_is_finite_map.
(** a map of pairs whose hash sends every key to the same bucket: chains of excess entries *)
Example C32_ex : exists u0 u, unordered_create (fun n => rev (seq 0 n)) [] 4 3 = Ret u0 /\
  u_run (V:=Z*Z) fst (fun _ => 9) Z.eqb false (fun n => rev (seq 0 n)) 2 u0
    [UInsert (1, 10); UInsert (2, 20); UInsert (1, 11); UInsert (3, 30); UFind 1; UFind 4; UErase 1; UErase 1; UCount 2; UContains 3; USize;
     UInsertRange [(5, 50); (6, 60)]; URange; UBucketSize 2; UInsert (7, 70); UEraseRange [2; 8]; UClear; UEmpty; UValid] =
  Ret (u, [UIns true (Some (1, 10)); UIns true (Some (2, 20)); UIns false None; UIns true (Some (3, 30)); UFound (Some (1, 10)); UFound None; UNum 1; UNum 0; UNum 1;
    UBool true; UNum 2; UUnit; UList [(2, 20); (3, 30); (5, 50); (6, 60)]; UNum 4; UIns false None; UUnit; UUnit; UBool true; UBool true]) /\
  key_equality Z.eqb /\ hash_respects Z.eqb (fun _ => 9) /\ sizes_ok 4 3.
Proof.
  eexists _, _. split; [vm_compute; reflexivity|]. split; [vm_compute; reflexivity|]. unfold key_equality, hash_respects, sizes_ok, INT_MAX.
  split; [|split; [reflexivity|lia]]. split; [apply Z.eqb_refl|]. split; intros *; rewrite !Z.eqb_eq; congruence.
Qed.

(** C33 *)
Theorem C33_unordered_valid : forall (K V : Type) (kf : V -> K) (hash : K -> Z) (keq : K -> K -> bool) (opt : bool) (ord : nat -> list nat),
  key_equality keq -> hash_respects keq hash -> any_order ord -> forall buckets excess, sizes_ok buckets excess ->
  forall fuel, (2 <= fuel)%nat -> forall junk (ops : list (uop K V)), Forall (uop_ok (Z.of_nat buckets)) ops ->
  exists u0 u rs, unordered_create ord junk (Z.of_nat buckets) (Z.of_nat excess) = Ret u0 /\
    u_run kf hash keq opt ord fuel u0 ops = Ret (u, rs) /\ u_valid kf hash keq ord u = Ret true.
Proof.
  intros. destruct (runs_as_map kf hash keq opt ord H H0 H1 _ _ H2 fuel H3 junk ops H4) as (u0 & u & rs & M & b & P). exists u0, u, rs. tauto.
Qed.
Print Assumptions C33_unordered_valid.

(** C34: device_range() gives the positions of the stored values, each once, size() many; the bucket sizes sum up to size().
    (That bucket_size(n) counts the values with bucket n is part of C32.) *)
Theorem C34_range_and_bucket_sizes : forall (K V : Type) (kf : V -> K) (hash : K -> Z) (keq : K -> K -> bool) (opt : bool) (ord : nat -> list nat),
  key_equality keq -> hash_respects keq hash -> any_order ord -> forall buckets excess, sizes_ok buckets excess ->
  forall fuel, (2 <= fuel)%nat -> forall u0 u, reachable kf hash keq opt ord fuel buckets excess u0 u ->
  exists u' positions sizes, u_range ord u = Ret (u', positions) /\ NoDup positions /\ (forall p, p ∈ positions <-> exists v, u_value u p = Ret v) /\
    u_size u = Ret (Z.of_nat (length positions)) /\
    Forall2 (fun b s => u_bucket_size u (Z.of_nat b) = Ret s) (seq 0 buckets) sizes /\ u_size u = Ret (fold_right Z.add 0 sizes).
Proof. intros * Hk Hh Ho buckets excess Hs fuel Hf u0 u (junk & ops & rs & Hops & Hc & Hr). eapply s_range; eassumption. Qed.
Print Assumptions C34_range_and_bucket_sizes.
(** a reachable container with a chain of three in one bucket and another bucket in use, used as the witness for the theorems on
    reachable containers *)
Definition ex_hash (k : Z) : Z := if k <? 10 then 0 else 2 ^ 63.
Definition ex_table : outcome (utab Z * utab Z) :=
  let! u0 := unordered_create (fun n => rev (seq 0 n)) [] 4 3 in
  let! (u, _) := u_run (fun v => v) ex_hash Z.eqb false (fun n => rev (seq 0 n)) 2 u0 [UInsert 1; UInsert 2; UInsert 12; UInsert 3; UErase 1] in Ret (u0, u).
Example C34_ex : exists u0 u u', ex_table = Ret (u0, u) /\ reachable (fun v => v) ex_hash Z.eqb false (fun n => rev (seq 0 n)) 2 4 3 u0 u /\
  key_equality Z.eqb /\ hash_respects Z.eqb ex_hash /\ any_order (fun n => rev (seq 0 n)) /\ sizes_ok 4 3 /\
  u_range (fun n => rev (seq 0 n)) u = Ret (u', [6; 5; 2]) /\ u_bucket_size u 0 = Ret 2 /\ u_bucket_size u 2 = Ret 1 /\ u_size u = Ret 3.
Proof.
  eexists _, _, _. split; [vm_compute; reflexivity|]. split; [exists [], [UInsert 1; UInsert 2; UInsert 12; UInsert 3; UErase 1]; eexists; split; [repeat constructor|]; split; [vm_compute; reflexivity|vm_compute; reflexivity]|].
  split; [split; [apply Z.eqb_refl|split; intros *; rewrite !Z.eqb_eq; congruence]|]. split; [intros a b; rewrite Z.eqb_eq; congruence|].
  split; [intros n; symmetry; apply Permutation_rev|]. split; [unfold sizes_ok, INT_MAX; lia|]. vm_compute. auto.
Qed.

(** C35 *)
Theorem C35_insert_rejected_when_no_room : forall (K V : Type) (kf : V -> K) (hash : K -> Z) (keq : K -> K -> bool) (opt : bool) (ord : nat -> list nat),
  key_equality keq -> hash_respects keq hash -> any_order ord -> forall buckets excess, sizes_ok buckets excess ->
  forall fuel, (2 <= fuel)%nat -> forall u0 u, reachable kf hash keq opt ord fuel buckets excess u0 u ->
  forall v, u_contains kf hash keq u (kf v) = Ret false ->
  exists u' p inserted, u_insert kf hash keq fuel u v = Ret (u', p, inserted) /\
    (inserted = false <-> u_full u = Ret true \/ v_empty (u_excess u) = true) /\ (inserted = false -> u' = u).
Proof. intros * Hk Hh Ho buckets excess Hs fuel Hf u0 u (junk & ops & rs & Hops & Hc & Hr). eapply s_rejected; eassumption. Qed.
Theorem C35_size_at_most_max_size : forall (K V : Type) (kf : V -> K) (hash : K -> Z) (keq : K -> K -> bool) (opt : bool) (ord : nat -> list nat),
  key_equality keq -> hash_respects keq hash -> any_order ord -> forall buckets excess, sizes_ok buckets excess ->
  forall fuel, (2 <= fuel)%nat -> forall u0 u, reachable kf hash keq opt ord fuel buckets excess u0 u ->
  exists s, u_size u = Ret s /\ 0 <= s <= total_count u /\ total_count u = Z.of_nat buckets + Z.of_nat excess.
Proof. intros * Hk Hh Ho buckets excess Hs fuel Hf u0 u (junk & ops & rs & Hops & Hc & Hr). eapply s_size; eassumption. Qed.
Print Assumptions C35_insert_rejected_when_no_room.
Print Assumptions C35_size_at_most_max_size.
(** no excess entry left: rejected although another bucket is free *)
Example C35_ex : exists u0 u, unordered_create (fun n => seq 0 n) [] 4 2 = Ret u0 /\
  u_run (fun v => v) ex_hash Z.eqb false (fun n => seq 0 n) 2 u0 [UInsert 1; UInsert 2; UInsert 3; UFull; UInsert 12; UErase 3; UInsert 12] =
    Ret (u, [UIns true (Some 1); UIns true (Some 2); UIns true (Some 3); UBool false; UIns false None; UNum 1; UIns true (Some 12)]).
Proof. eexists _, _. split; [vm_compute; reflexivity|]. vm_compute. reflexivity. Qed.

(** C36, what holds: createDeviceObject(n) succeeds for every n up to 2^30, bucket_count() is a power of two, max_size() > n; and
    a sequence of insertions of distinct keys into a new container succeeds if fewer of them share their bucket with an earlier one
    than there are excess entries. *)
Theorem C36_created_sizes_partial : forall n, 0 < n <= 2 ^ 30 -> forall (V : Type) ord, any_order ord -> forall junk,
  exists k excess (u : utab V), 0 <= k <= 30 /\ unordered_create_for ord junk n = Ret u /\ u_bc u = 2 ^ k /\ bucket_count_for n = 2 ^ k /\ excess_count_for n = Ret excess /\
    total_count u = 2 ^ k + excess /\ n < total_count u.
Proof. exact @s_created. Qed.
Theorem C36_few_collisions_partial : forall (K V : Type) (kf : V -> K) (hash : K -> Z) (keq : K -> K -> bool) (opt : bool) (ord : nat -> list nat),
  key_equality keq -> hash_respects keq hash -> any_order ord -> forall buckets excess, sizes_ok buckets excess ->
  forall fuel, (2 <= fuel)%nat -> forall junk (vs : list V) (bucket : K -> Z) u0, unordered_create ord junk (Z.of_nat buckets) (Z.of_nat excess) = Ret u0 ->
  (forall k, u_bucket hash u0 k = Ret (bucket k)) -> keys_distinct kf keq vs -> (collisions (fun v => bucket (kf v)) vs < excess)%nat ->
  exists u, u_run kf hash keq opt ord fuel u0 (UInsert <$> vs) = Ret (u, (fun v => UIns true (Some v)) <$> vs).
Proof. intros. eapply s_inserts; eassumption. Qed.
Print Assumptions C36_created_sizes_partial.
Print Assumptions C36_few_collisions_partial.
Example C36_ex : collisions (fun k => match u_bucket (V:=Z) ex_hash {| u_bc := 4; u_values := []; u_off := []; u_occ := []; u_locks := []; u_count := 0; u_excess := {| v_n := 0; v_data := []; v_occ := []; v_locks := []; v_ev := [] |}; u_indices := []; u_ev := [] |} k with Ret b => b | _ => -1 end)
   [1; 12; 2; 13; 3] = 3%nat.
Proof. vm_compute. reflexivity. Qed.
(** ... and what does not: (a) a container created for 8 elements rejects the eighth of 8 distinct keys if they share a bucket *)
Theorem C36_constant_hash_refuted : exists (u0 u : utab Z), unordered_create_for (fun n => seq 0 n) [] 8 = Ret u0 /\ u_bc u0 = 8 /\
  u_run (fun v => v) (fun _ => 0) Z.eqb true (fun n => seq 0 n) 2 u0 (UInsert <$> [1; 2; 3; 4; 5; 6; 7; 8]) =
    Ret (u, ((fun v => UIns true (Some v)) <$> [1; 2; 3; 4; 5; 6; 7]) ++ [UIns false None]).
Proof. eexists _, _. split; [vm_compute; reflexivity|]. split; vm_compute; reflexivity. Qed.
(** (b) beyond 2^30 + 64 the bucket count 2^31 does not fit index_t and creation violates its precondition *)
Theorem C36_large_capacity_refuted : forall ord junk, bucket_count_for (2 ^ 30 + 65) = - 2 ^ 31 /\ unordered_create_for (V:=Z) ord junk (2 ^ 30 + 65) = UB.
Proof. intros. split; vm_compute; reflexivity. Qed.
(** (c) capacities beyond 2^24 are rounded to float first: there may be fewer buckets than elements asked for *)
Theorem C36_rounded_capacity_refuted : bucket_count_for (2 ^ 24 + 1) = 2 ^ 24.
Proof. vm_compute. reflexivity. Qed.
Print Assumptions C36_constant_hash_refuted.
Print Assumptions C36_large_capacity_refuted.

(** C40: after clear(): size 0, no key found, no value alive, every excess entry available, valid(); exactly the stored values have been
    destroyed, each once; every further sequence of calls gives the same results as on a new container *)
Theorem C40_clear : forall (K V : Type) (kf : V -> K) (hash : K -> Z) (keq : K -> K -> bool) (opt : bool) (ord : nat -> list nat),
  key_equality keq -> hash_respects keq hash -> any_order ord -> forall buckets excess, sizes_ok buckets excess ->
  forall fuel, (2 <= fuel)%nat -> forall u0 u, reachable kf hash keq opt ord fuel buckets excess u0 u ->
  forall later, Forall (uop_ok (Z.of_nat buckets)) later ->
  exists u1 v1 w1 rs1 rs2, u_clear opt ord u = Ret u1 /\ u_size u1 = Ret 0 /\ (forall k, u_find kf hash keq u1 k = Ret (total_count u1)) /\
    v_full (u_excess u1) = true /\ u_valid kf hash keq ord u1 = Ret true /\ (forall p, ~ exists v, u_value u1 p = Ret v) /\
    (opt = false -> exists freed, u_ev u1 = u_ev u ++ ((fun p => EvDestroy (InSlot p)) <$> freed) /\ NoDup freed /\ forall p, p ∈ freed <-> exists v, u_value u (Z.of_nat p) = Ret v) /\
    u_run kf hash keq opt ord fuel u1 later = Ret (v1, rs1) /\ u_run kf hash keq opt ord fuel u0 later = Ret (w1, rs2) /\ Forall2 same_ures rs1 rs2.
Proof. intros * Hk Hh Ho buckets excess Hs fuel Hf u0 u (junk & ops & rs & Hops & Hc & Hr). eapply s_clear; eassumption. Qed.
Print Assumptions C40_clear.
Example C40_ex : exists u0 u u1, ex_table = Ret (u0, u) /\ u_clear false (fun n => rev (seq 0 n)) u = Ret u1 /\
  u_ev u1 = u_ev u ++ [EvDestroy (InSlot 6); EvDestroy (InSlot 5); EvDestroy (InSlot 2)].
Proof. eexists _, _, _. split; [vm_compute; reflexivity|]. split; vm_compute; reflexivity. Qed.

(** C53 for the unordered containers: construct and destroy alternate on every entry (reading a dead entry is UB, excluded by C32), the
    living entries are the stored ones, and destroyDeviceObject leaves none *)
Theorem C53_unordered_lifetimes : forall (K V : Type) (kf : V -> K) (hash : K -> Z) (keq : K -> K -> bool) (opt : bool) (ord : nat -> list nat),
  key_equality keq -> hash_respects keq hash -> any_order ord -> forall buckets excess, sizes_ok buckets excess ->
  forall fuel, (2 <= fuel)%nat -> forall u0 u, reachable kf hash keq opt ord fuel buckets excess u0 u ->
  opt = false -> lifetime_ok nothing (u_ev u) /\ (forall p, live_after nothing (u_ev u) (InSlot p) = true <-> exists v, u_value u (Z.of_nat p) = Ret v) /\
  exists u', unordered_destroy opt ord u = Ret u' /\ lifetime_ok nothing (u_ev u') /\ forall p, live_after nothing (u_ev u') (InSlot p) = false.
Proof. intros * Hk Hh Ho buckets excess Hs fuel Hf u0 u (junk & ops & rs & Hops & Hc & Hr). eapply s_life; eassumption. Qed.
Print Assumptions C53_unordered_lifetimes.
Example C53_unordered_ex : exists u0 u, ex_table = Ret (u0, u) /\
  u_ev u = [EvConstruct (InSlot 0); EvConstruct (InSlot 6); EvConstruct (InSlot 2); EvConstruct (InSlot 5); EvDestroy (InSlot 0)].
Proof. eexists _, _. split; [vm_compute; reflexivity|]. vm_compute. reflexivity. Qed.

(** C55: erasing a key leaves every other key at its position with its value ... *)
Theorem C55_erase_keeps_others : forall (K V : Type) (kf : V -> K) (hash : K -> Z) (keq : K -> K -> bool) (opt : bool) (ord : nat -> list nat),
  key_equality keq -> hash_respects keq hash -> any_order ord -> forall buckets excess, sizes_ok buckets excess ->
  forall fuel, (2 <= fuel)%nat -> forall u0 u, reachable kf hash keq opt ord fuel buckets excess u0 u ->
  forall k, exists u' m, u_erase kf hash keq fuel u k = Ret (u', m) /\
    (forall k' p, keq k' k = false -> u_find kf hash keq u k' = Ret p -> u_find kf hash keq u' k' = Ret p) /\
    (forall k' p v, keq k' k = false -> u_find kf hash keq u k' = Ret p -> u_value u p = Ret v -> u_value u' p = Ret v).
Proof. intros * Hk Hh Ho buckets excess Hs fuel Hf u0 u (junk & ops & rs & Hops & Hc & Hr). eapply s_erase; eassumption. Qed.
(** ... and the freed entry is the one the next new key gets: a bucket head for a key of that bucket, an excess entry for a key of any
    bucket whose head is in use *)
Theorem C55_freed_entry_reused : forall (K V : Type) (kf : V -> K) (hash : K -> Z) (keq : K -> K -> bool) (opt : bool) (ord : nat -> list nat),
  key_equality keq -> hash_respects keq hash -> any_order ord -> forall buckets excess, sizes_ok buckets excess ->
  forall fuel, (2 <= fuel)%nat -> forall u0 u, reachable kf hash keq opt ord fuel buckets excess u0 u ->
  forall k b v bv q u' m, u_bucket hash u k = Ret b -> u_bucket hash u (kf v) = Ret bv ->
  u_find kf hash keq u k = Ret q -> q <> total_count u -> u_erase kf hash keq fuel u k = Ret (u', m) -> u_contains kf hash keq u' (kf v) = Ret false ->
  (q <> b -> u_occupied u' bv = Ret true) -> (q = b -> bv = b /\ v_empty (u_excess u') = false) ->
  exists u2, u_insert kf hash keq fuel u' v = Ret (u2, q, true).
Proof. intros * Hk Hh Ho buckets excess Hs fuel Hf u0 u (junk & ops & rs & Hops & Hc & Hr) k b v bv q u' m. intros. eapply (s_reuse kf hash keq opt ord Hk Hh Ho buckets excess Hs fuel Hf junk ops Hops u0 u rs Hc Hr k b v bv q u' m); assumption. Qed.
Print Assumptions C55_erase_keeps_others.
Print Assumptions C55_freed_entry_reused.
(** erasing the middle of the chain 0 -> 6 -> 5: the tail keeps its position, a new key of the other bucket gets entry 6 *)
Example C55_ex : exists u0 u u', ex_table = Ret (u0, u) /\ u_find (fun v => v) ex_hash Z.eqb u 2 = Ret 6 /\ u_find (fun v => v) ex_hash Z.eqb u 3 = Ret 5 /\
  u_erase (fun v => v) ex_hash Z.eqb 2 u 2 = Ret (u', 1) /\ u_find (fun v => v) ex_hash Z.eqb u' 3 = Ret 5 /\ u_contains (fun v => v) ex_hash Z.eqb u' 13 = Ret false /\
  exists u2, u_insert (fun v => v) ex_hash Z.eqb 2 u' 13 = Ret (u2, 6, true).
Proof. eexists _, _, _. split; [vm_compute; reflexivity|]. repeat (split; [vm_compute; reflexivity|]). eexists. vm_compute. reflexivity. Qed.
