(** Property theorems C49-C52, C54: algorithms, reductions, lane serialisation, block counts *)
From Verif Require Import Base AlgoModel AlgoSpec AlgoProofs.

(** C49: for every processing order of the indices 0..n-1 the result is the sequential one: the cells
    [b, b+n) hold the new contents and every other cell is untouched. *)
Theorem C49_fill_schedule_independent : forall (T : Type) (order : list nat) n b (v : T) (m : mem T),
  Permutation order (seq 0 n) -> (b + n <= length m)%nat ->
  (forall i, (i < n)%nat -> exists w, m !! (b + i)%nat = Some (Live w)) ->
  fill_n order b v m = Ret (take b m ++ replicate n (Live v) ++ drop (b + n) m).
Proof. exact @fill_n_spec. Qed.
Print Assumptions C49_fill_schedule_independent.
Theorem C49_copy_schedule_independent : forall (T : Type) (order : list nat) n a b (m : mem T),
  Permutation order (seq 0 n) ->
  (a + n <= length m)%nat -> (b + n <= length m)%nat -> (a + n <= b \/ b + n <= a)%nat ->
  (forall i, (i < n)%nat -> exists w, m !! (a + i)%nat = Some (Live w)) ->
  (forall i, (i < n)%nat -> exists w, m !! (b + i)%nat = Some (Live w)) ->
  copy_n order a b m = Ret (take b m ++ take n (drop a m) ++ drop (b + n) m).
Proof. exact @copy_n_spec. Qed.
Print Assumptions C49_copy_schedule_independent.
Theorem C49_iota_schedule_independent : forall (T : Type) (add : T -> nat -> T) (order : list nat) n b (v : T) (m : mem T),
  Permutation order (seq 0 n) -> (b + n <= length m)%nat ->
  (forall i, (i < n)%nat -> exists w, m !! (b + i)%nat = Some (Live w)) ->
  iota add order b v m = Ret (take b m ++ ((fun i => Live (add v i)) <$> seq 0 n) ++ drop (b + n) m).
Proof. exact @iota_spec. Qed.
Print Assumptions C49_iota_schedule_independent.
Theorem C49_uninitialized_fill_schedule_independent : forall (T : Type) (order : list nat) n b (v : T) (m : mem T),
  Permutation order (seq 0 n) -> (b + n <= length m)%nat ->
  uninitialized_fill_n order b v m = Ret (take b m ++ replicate n (Live v) ++ drop (b + n) m).
Proof. exact @uninitialized_fill_n_spec. Qed.
Print Assumptions C49_uninitialized_fill_schedule_independent.
Theorem C49_uninitialized_copy_schedule_independent : forall (T : Type) (order : list nat) n a b (m : mem T),
  Permutation order (seq 0 n) ->
  (a + n <= length m)%nat -> (b + n <= length m)%nat -> (a + n <= b \/ b + n <= a)%nat ->
  (forall i, (i < n)%nat -> exists w, m !! (a + i)%nat = Some (Live w)) ->
  uninitialized_copy_n order a b m = Ret (take b m ++ take n (drop a m) ++ drop (b + n) m).
Proof. exact @uninitialized_copy_n_spec. Qed.
Print Assumptions C49_uninitialized_copy_schedule_independent.
Theorem C49_destroy_schedule_independent : forall (T : Type) (order : list nat) n b (m : mem T),
  Permutation order (seq 0 n) -> (b + n <= length m)%nat ->
  (forall i, (i < n)%nat -> exists w, m !! (b + i)%nat = Some (Live w)) ->
  destroy_n order b m = Ret (take b m ++ replicate n Raw ++ drop (b + n) m).
Proof. exact @destroy_n_spec. Qed.
Print Assumptions C49_destroy_schedule_independent.
Example C49_ex : copy_n [2; 0; 1]%nat 1 4 [Live 9; Live 1; Live 2; Live 3; Live 0; Live 0; Live 0]
  = Ret [Live 9; Live 1; Live 2; Live 3; Live 1; Live 2; Live 3] /\ Permutation [2; 0; 1]%nat (seq 0 3).
Proof.
  split; [reflexivity|]. cbn. rewrite (Permutation_swap 0%nat 2%nat). apply perm_skip. apply Permutation_swap.
Qed.

(** C50: every reduction tree over init and f(0..n-1) gives the left fold. *)
Theorem C50_transform_reduce_order_independent :
  forall (A : Type) (op : A -> A -> A),
    (forall a b c, op a (op b c) = op (op a b) c) -> (forall a b, op a b = op b a) ->
  forall (f : nat -> A) (init : A) (t : rtree) (n : nat),
    Permutation (rleaves t) (None :: (Some <$> seq 0 n)) ->
    transform_reduce_index_thrust op f init t = fold_left op (map f (seq 0 n)) init.
Proof. exact @reval_perm. Qed.
Print Assumptions C50_transform_reduce_order_independent.
(** ... and so does the HIP variant with its early return and host fold. *)
Theorem C50_transform_reduce_hip : forall (A : Type) (op : A -> A -> A) f init t size,
  (forall a b c, op a (op b c) = op (op a b) c) -> (forall a b, op a b = op b a) ->
  Permutation (rleaves t) (None :: (Some <$> seq 0 (Z.to_nat size))) ->
  transform_reduce_index_hip size op f init t = fold_left op (map f (seq 0 (Z.to_nat size))) init.
Proof. exact @transform_reduce_hip_spec. Qed.
Print Assumptions C50_transform_reduce_hip.
Example C50_ex : transform_reduce_index_thrust Z.add (fun i => Z.of_nat i * 10) 7
   (RNode (RNode (RLeaf 2) (RLeaf 0)) (RNode (RLeaf 1) RInit)) = 37.
Proof. reflexivity. Qed.

(** C51: for every strict weak order *)
Theorem C51_min : forall (T : Type) (lt : T -> T -> bool), strict_weak lt -> forall a b,
  (min lt a b = a \/ min lt a b = b) /\ lt a (min lt a b) = false /\ lt b (min lt a b) = false
  /\ (lt b a = false -> min lt a b = a).
Proof. exact @min_spec. Qed.
Print Assumptions C51_min.
Theorem C51_max : forall (T : Type) (lt : T -> T -> bool), strict_weak lt -> forall a b,
  (max lt a b = a \/ max lt a b = b) /\ lt (max lt a b) a = false /\ lt (max lt a b) b = false
  /\ (lt a b = false -> max lt a b = a).
Proof. exact @max_spec. Qed.
Print Assumptions C51_max.
Theorem C51_clamp : forall (T : Type) (lt : T -> T -> bool), strict_weak lt -> forall v lo hi,
  (lt hi lo = true -> clamp lt v lo hi = UB) /\
  (lt hi lo = false -> exists r, clamp lt v lo hi = Ret r /\
     lt r lo = false /\ lt hi r = false /\
     (lt v lo = false -> lt hi v = false -> r = v) /\
     (lt v lo = true -> r = lo) /\ (lt hi v = true -> r = hi) /\
     clamp lt r lo hi = Ret r).
Proof. exact @clamp_spec. Qed.
Print Assumptions C51_clamp.
Example C51_ex : strict_weak Z.ltb /\ clamp Z.ltb 12 3 9 = Ret 9.
Proof. split; [|reflexivity]. unfold strict_weak. repeat split; intros; lia. Qed.

(** C52: every active lane executes the body in exactly one round, its rank among the active lanes
    (hence no two lanes in the same round, ascending lane order); the loop terminates. *)
Theorem C52_each_active_lane_once : forall fuel lane active,
  0 <= active < 2 ^ 64 -> (64 < fuel)%nat -> 0 <= lane < 64 -> Z.testbit active lane = true ->
  warp_convergent_execute fuel lane active =
    Ret [Z.of_nat (length (filter (fun j => j < lane /\ Z.testbit active j = true) (seqZ 0 64)))].
Proof. exact warp_convergent_spec. Qed.
Print Assumptions C52_each_active_lane_once.
Theorem C52_no_other_lane : forall fuel lane active,
  0 <= active < 2 ^ 64 -> (64 < fuel)%nat -> Z.testbit active lane = false ->
  warp_convergent_execute fuel lane active = Ret [].
Proof. exact warp_convergent_inactive. Qed.
Print Assumptions C52_no_other_lane.
Example C52_ex : warp_convergent_execute 65 63 (2 ^ 63 + 2 ^ 10 + 1) = Ret [2].
Proof. vm_compute. reflexivity. Qed.

(** C54 *)
Theorem C54_div_up_least : forall a b,
  (0 <= a -> 0 < b -> exists q, div_up a b = Ret q /\ 0 <= q /\ q * b >= a /\ forall q', q' * b >= a -> q <= q') /\
  (a < 0 \/ b <= 0 -> div_up a b = UB).
Proof. exact div_up_spec. Qed.
Print Assumptions C54_div_up_least.
Example C54_ex : div_up 65 32 = Ret 3 /\ div_up 64 32 = Ret 2.
Proof. split; reflexivity. Qed.
