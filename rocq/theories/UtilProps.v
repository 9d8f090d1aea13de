(** Property theorems C41 (hash), C56 (numeric_limits of the integer types) and C57 (insert iterators). *)
From Verif Require Import Base UtilModel UtilSpec UtilProofs VectorModel VectorSpec DequeModel DequeSpec UnorderedModel UnorderedSpec.

(** C41 for the integer types and enumerations: keys are equal iff their hash values are *)
Theorem C41_integer_hash_injective : forall (t : int_type) (k1 k2 : Z), value_of_type t k1 -> value_of_type t k2 ->
  (hash_int t k1 = hash_int t k2 <-> k1 = k2) /\ (hash_enum t k1 = hash_enum t k2 <-> k1 = k2).
Proof. intros t k1 k2 H1 H2. split; exact (hash_int_injective t k1 k2 H1 H2). Qed.
(** C41 for float and double, what holds: equal keys have equal hash values unless both are zeros (long double is not modelled) *)
Theorem C41_float_hash_partial : forall u v,
  (pattern 23 8 u -> pattern 23 8 v -> float_eq u v = true -> ~ (is_zero 23 8 u /\ is_zero 23 8 v) -> hash_float u = hash_float v) /\
  (pattern 52 11 u -> pattern 52 11 v -> double_eq u v = true -> ~ (is_zero 52 11 u /\ is_zero 52 11 v) -> hash_double u = hash_double v).
Proof.
  intros u v. split; intros Hu Hv He Hz; [destruct (ieee_eq_bits 23 8 ltac:(lia) ltac:(lia) u v Hu Hv He) as [-> |H]|destruct (ieee_eq_bits 52 11 ltac:(lia) ltac:(lia) u v Hu Hv He) as [-> |H]];
    (reflexivity || (exfalso; exact (Hz H))).
Qed.
(** 0.0 == -0.0 but the hash values differ: bit patterns 0 and 2^31 (float), 0 and 2^63 (double) *)
Theorem C41_signed_zero_refuted :
  float_eq 0 (2 ^ 31) = true /\ hash_float 0 <> hash_float (2 ^ 31) /\ double_eq 0 (2 ^ 63) = true /\ hash_double 0 <> hash_double (2 ^ 63).
Proof. split; [vm_compute; reflexivity|]. split; [vm_compute; discriminate|]. split; [vm_compute; reflexivity|]. vm_compute. discriminate. Qed.
(** ... so a set of floats that holds 0.0 does not find the equal key -0.0, and stores both *)
Theorem C41_signed_zero_lost_refuted : exists u0 u, unordered_create (fun n => seq 0 n) [] 4 4 = Ret u0 /\
  u_run (V:=Z) (fun v => v) hash_float float_eq true (fun n => seq 0 n) 2 u0 [UInsert 0; UContains 0; UContains (2 ^ 31); UInsert (2 ^ 31); USize] =
  Ret (u, [UIns true (Some 0); UBool true; UBool false; UIns true (Some (2 ^ 31)); UNum 2]).
Proof. eexists _, _. split; [vm_compute; reflexivity|]. vm_compute. reflexivity. Qed.
Print Assumptions C41_integer_hash_injective.
Print Assumptions C41_float_hash_partial.
Print Assumptions C41_signed_zero_refuted.
Print Assumptions C41_signed_zero_lost_refuted.
(** -1 and 1 of type short; 1.5f; NaN is not equal to itself; infinities; 1.0 and the next double *)
Example C41_ex : value_of_type Tshort (-1) /\ hash_int Tshort (-1) = 2 ^ 64 - 1 /\ ~ value_of_type Tshort 32768 /\
  float_eq 1069547520 1069547520 = true /\ float_eq 2143289344 2143289344 = false /\ float_eq 2139095040 2139095040 = true /\ float_eq 2139095040 4286578688 = false /\
  double_eq 4607182418800017408 4607182418800017409 = false /\ pattern 52 11 4607182418800017409.
Proof.
  split; [apply (proj2 (proj2 (proj2 (proj2 (proj2 (limits_exact Tshort))))) (-1)); vm_compute; split; discriminate|]. split; [vm_compute; reflexivity|].
  split; [intros H; apply (proj2 (proj2 (proj2 (proj2 (proj2 (limits_exact Tshort))))) 32768) in H; vm_compute in H; destruct H as [_ H]; apply H; reflexivity|].
  do 5 (split; [vm_compute; reflexivity|]). split; [vm_compute; discriminate|]. vm_compute. reflexivity.
Qed.

(** C56 *)
Theorem C56_integer_limits : forall t : int_type,
  limits_max t = 2 ^ limits_digits t - 1 /\ (signed_type t -> limits_min t = - 2 ^ limits_digits t) /\ (~ signed_type t -> limits_min t = 0) /\
  limits_lowest t = limits_min t /\ (limits_is_signed t = true <-> signed_type t) /\ (forall z, value_of_type t z <-> limits_min t <= z <= limits_max t).
Proof. exact limits_exact. Qed.
Print Assumptions C56_integer_limits.
Example C56_ex : limits_digits Tlong = 63 /\ limits_min Tlong = - 2 ^ 63 /\ limits_max Tchar16 = 2 ^ 16 - 1 /\ signed_type Tlong.
Proof. repeat split. unfold signed_type. repeat (apply elem_of_cons; (left; reflexivity) || right). Qed.

(** C57: [ops] any calls before the copy, [order] the order in which the elements of [xs] are assigned: a sequential copy uses
    seq 0 (length xs), and then in_order order xs = xs; a parallel one any order.  The container afterwards is the one in which the
    values were pushed/inserted in that order, those that do not fit being dropped. *)
Theorem C57_order_of_assignments : forall (V : Type) (xs : list V), in_order (seq 0 (length xs)) xs = xs /\ forall order, order ≡ₚ seq 0 (length xs) -> in_order order xs ≡ₚ xs.
Proof. intros V xs. split; [apply in_order_seq|apply in_order_perm]. Qed.
Theorem C57_back_inserter_vector : forall (T : Type) (opt : bool) (ord : nat -> list nat), (forall n, ord n ≡ₚ seq 0 n) ->
  forall cap (ops : list (vop T)), 0 < cap <= INT_MAX -> (forall op, op ∈ ops -> op_fits cap op) ->
  forall l rs, spec_vrun cap [] ops = Ret (l, rs) -> forall xs order, order ≡ₚ seq 0 (length xs) ->
  exists v0 v v', vec_create cap = Ret v0 /\ vec_run opt ord v0 ops = Ret (v, rs) /\ v_range v = Ret l /\
    copy_to_inserter v_push_back order xs v = Ret v' /\ v_range v' = Ret (l ++ take (Z.to_nat cap - length l) (in_order order xs)) /\ v_valid v' = true.
Proof. exact back_inserter_vector. Qed.
(** deque: the content is observed through any calls [more] after the copy *)
Theorem C57_inserter_deque : forall (T : Type) (opt : bool) (ord : nat -> list nat) (front : bool), (forall n, ord n ≡ₚ seq 0 n) ->
  forall junk cap (ops more : list (dop T)), 0 < cap <= INT_MAX -> (forall op, op ∈ ops ++ more -> dop_fits cap op) ->
  forall l rs, spec_drun cap [] ops = Ret (l, rs) -> forall xs order, order ≡ₚ seq 0 (length xs) ->
  forall l2 rs2, spec_drun cap (if front then rev (take (Z.to_nat cap - length l) (in_order order xs)) ++ l
                                else l ++ take (Z.to_nat cap - length l) (in_order order xs)) more = Ret (l2, rs2) ->
  exists d0 d d' d2 rs' rs2', deq_create junk cap = Ret d0 /\ deq_run opt ord d0 ops = Ret (d, rs') /\ Forall2 same_result rs' rs /\
    copy_to_inserter (if front then d_push_front else d_push_back) order xs d = Ret d' /\ deq_run opt ord d' more = Ret (d2, rs2') /\ Forall2 same_result rs2' rs2.
Proof. exact inserter_deque. Qed.
(** unordered_map / unordered_set: spec_inserts M xs M' is the insertion of the values one after the other (which of the new keys are
    accepted is C35) *)
Theorem C57_inserter_unordered : forall (K V : Type) (kf : V -> K) (hash : K -> Z) (keq : K -> K -> bool) (opt : bool) (ord : nat -> list nat),
  key_equality keq -> hash_respects keq hash -> any_order ord -> forall buckets excess, sizes_ok buckets excess ->
  forall fuel, (2 <= fuel)%nat -> forall junk (ops more : list (uop K V)), Forall (uop_ok (Z.of_nat buckets)) (ops ++ more) ->
  forall xs order, order ≡ₚ seq 0 (length xs) ->
  exists u0 u u' u2 rs rs2 M M' M2 (bucket : K -> Z), unordered_create ord junk (Z.of_nat buckets) (Z.of_nat excess) = Ret u0 /\
    u_run kf hash keq opt ord fuel u0 ops = Ret (u, rs) /\ spec_urun kf keq bucket (Z.of_nat (buckets + excess)) [] ops rs M /\
    copy_to_inserter (insert_op kf hash keq fuel) order xs u = Ret u' /\ spec_inserts kf keq M (in_order order xs) M' /\
    u_run kf hash keq opt ord fuel u' more = Ret (u2, rs2) /\ spec_urun kf keq bucket (Z.of_nat (buckets + excess)) M' more rs2 M2.
Proof. intros K V kf hash keq opt ord. exact (inserter_unordered kf hash keq opt ord). Qed.
Print Assumptions C57_order_of_assignments.
Print Assumptions C57_back_inserter_vector.
Print Assumptions C57_inserter_deque.
Print Assumptions C57_inserter_unordered.
(** four values into a deque of capacity 4 that holds one, in the order 2, 0, 3, 1: the last one does not fit *)
Example C57_ex : exists d0 d d' d2, deq_create (T:=Z) [] 4 = Ret d0 /\ deq_run true (fun n => seq 0 n) d0 [DPushBack 7] = Ret (d, [RBool true]) /\
  copy_to_inserter d_push_front [2; 0; 3; 1]%nat [10; 11; 12; 13] d = Ret d' /\ deq_run true (fun n => seq 0 n) d' [DRange; DFull; DFront] = Ret (d2, [RList [7; 13; 10; 12]; RBool true; RVal 13]) /\
  rev (take (4 - 1) (in_order [2; 0; 3; 1]%nat [10; 11; 12; 13])) ++ [7] = [13; 10; 12; 7] /\ [2; 0; 3; 1]%nat ≡ₚ seq 0 4.
Proof.
  eexists _, _, _, _. split; [vm_compute; reflexivity|]. split; [vm_compute; reflexivity|]. split; [vm_compute; reflexivity|]. split; [vm_compute; reflexivity|]. split; [vm_compute; reflexivity|].
  apply NoDup_Permutation; [repeat constructor; rewrite ?elem_of_cons, ?elem_of_nil; lia|apply NoDup_seq|]. intros x. rewrite !elem_of_cons, elem_of_nil, elem_of_seq. lia.
Qed.
