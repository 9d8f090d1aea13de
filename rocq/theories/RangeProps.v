(** Array iterators and ranges (C71). *)
From Verif Require Import Base MemoryModel MemorySpec MemoryFinalProofs RangeModel RangeProofs.

(** C71: after every history of array calls and for every pointer p, the loop over [device_begin(p), device_end(p)) (host_begin/host_end, and device_range(p),
    host_range(p)) ends; it visits the elements of the array in order, as many as size(p) says; range.size() and range.empty() tell so. *)
Theorem C71_array_iteration : forall sz, 0 < sz -> forall malloc, malloc_ok malloc -> never_fails malloc -> forall dc ord ops s rs, sized ops -> arr_run malloc dc ord mem0 ops = Ret (s, rs) ->
  forall p, exists l, (forall l', iterates sz (range_array sz s p) l' <-> l' = l) /\ Z.of_nat (length l) = array_size sz s p /\
    (forall i a, l !! i = Some a <-> (i < length l)%nat /\ a = p + Z.of_nat i * sz) /\
    range_size sz (range_array sz s p) = Ret (array_size sz s p) /\ range_empty sz (range_array sz s p) = Ret (bool_decide (l = [])) /\
    range_array sz s p = range_pair (array_begin p) (array_end sz s p).
Proof. exact iterate_array. Qed.
(** the elements visited are the whole array: together their bytes are exactly the bytes of the block at p, if it is an array of elements of this size *)
Theorem C71_covers_the_array : forall sz, 0 < sz -> forall malloc, malloc_ok malloc -> never_fails malloc -> forall dc ord ops s rs, sized ops -> arr_run malloc dc ord mem0 ops = Ret (s, rs) ->
  forall p m l, (p, m) ∈ heap s -> m mod sz = 0 -> iterates sz (range_array sz s p) l -> forall x, p <= x < p + m <-> exists i a, l !! i = Some a /\ a <= x < a + sz.
Proof. exact iterate_covers. Qed.
(** a pointer that is not the beginning of a live array (null, inside an array, freed), or of one whose bytes are no multiple of the element size, is an empty range *)
Theorem C71_other_pointers_are_empty : forall sz, 0 < sz -> forall malloc, malloc_ok malloc -> never_fails malloc -> forall dc ord ops s rs, sized ops -> arr_run malloc dc ord mem0 ops = Ret (s, rs) ->
  forall p l, (forall m, (p, m) ∈ heap s -> m mod sz <> 0) -> iterates sz (range_array sz s p) l -> l = [].
Proof. exact iterate_nothing. Qed.
(** so for any pointer at all, iterating accesses live memory only *)
Theorem C71_iteration_is_safe : forall sz, 0 < sz -> forall malloc, malloc_ok malloc -> never_fails malloc -> forall dc ord ops s rs, sized ops -> arr_run malloc dc ord mem0 ops = Ret (s, rs) ->
  forall p l a, iterates sz (range_array sz s p) l -> a ∈ l -> in_block (heap s) a sz = true.
Proof. exact iterate_safe. Qed.
(** a range of n elements has n elements *)
Theorem C71_counted_range : forall sz, 0 < sz -> forall p n, 0 <= n -> range_size sz (range_n sz p n) = Ret n /\
  forall l, iterates sz (range_n sz p n) l <-> (Z.of_nat (length l) = n /\ forall i, (i < length l)%nat -> l !! i = Some (p + Z.of_nat i * sz)).
Proof.
  intros sz Hsz p n Hn. split; [apply size_n; exact Hsz|]. intros l. rewrite iterates_n by assumption. split.
  - intros ->. assert (L : length (addresses sz p (Z.to_nat n)) = Z.to_nat n) by (unfold addresses; rewrite fmap_length, seq_length; reflexivity). rewrite L. split; [lia|].
    intros i Hi. apply addresses_lookup. split; [exact Hi|reflexivity].
  - intros [HL H]. apply list_eq. intros i. destruct (decide (i < length l)%nat) as [Hi|Hi].
    + rewrite (H i Hi). symmetry. apply addresses_lookup. split; [lia|reflexivity].
    + assert (E1 : l !! i = None) by (apply lookup_ge_None; lia). assert (E2 : addresses sz p (Z.to_nat n) !! i = None) by (apply lookup_ge_None; unfold addresses; rewrite fmap_length, seq_length; lia). congruence.
Qed.
(** a transformed range yields the image of every element, in the same order; its size is that of the underlying range *)
Theorem C71_transformed_range : forall (B : Type) sz (r : range) (f : Z -> B),
  (forall l, yields sz (transform_range r f) l <-> exists as_, iterates sz r as_ /\ length l = length as_ /\ forall i a, as_ !! i = Some a -> l !! i = Some (f a)) /\
  trange_size sz (transform_range r f) = range_size sz r /\ trange_empty sz (transform_range r f) = range_empty sz r.
Proof. intros B sz r f. split; [intros l; apply transform_yields|]. split; reflexivity. Qed.
(** an indexed range over n indices yields the n elements values[i] that the indices name, in the order of the indices *)
Theorem C71_indexed_range : forall decode sz s indices n values, 0 <= n ->
  forall l, yields 4 (indexed_range decode sz s (range_n 4 indices n) values) l <->
    (Z.of_nat (length l) = n /\ forall j, (j < length l)%nat -> l !! j = Some (values + decode (read4 s (indices + Z.of_nat j * 4)) * sz)).
Proof.
  intros decode sz s indices n values Hn l. unfold indexed_range. rewrite transform_yields. destruct (C71_counted_range 4 ltac:(lia) indices n Hn) as [_ HC]. split.
  - intros (as_ & Hi & HL & H). apply HC in Hi as [Hn' Ha]. split; [lia|]. intros j Hj. apply H. apply Ha. lia.
  - intros [HL H]. exists (addresses 4 indices (Z.to_nat n)). assert (L : length (addresses 4 indices (Z.to_nat n)) = Z.to_nat n) by (unfold addresses; rewrite fmap_length, seq_length; reflexivity).
    split; [apply iterates_n; [lia|exact Hn|reflexivity]|]. split; [lia|]. intros i a Ha. apply addresses_lookup in Ha as [Hi ->]. apply H. lia.
Qed.
Print Assumptions C71_array_iteration.
Print Assumptions C71_covers_the_array.
Print Assumptions C71_other_pointers_are_empty.
Print Assumptions C71_iteration_is_safe.
Print Assumptions C71_counted_range.
Print Assumptions C71_transformed_range.
Print Assumptions C71_indexed_range.

(** an array of 3 elements of 4 bytes: visited in order; as elements of 8 bytes, or through a pointer to its second element: empty *)
Example C71_ex : exists s p, arr_run first_fit true (seq 0) mem0 [(4, ACreateDevice 3 [1; 2; 3; 4])] = Ret (s, [MPtr p]) /\ (p, 12) ∈ heap s /\
  array_size 4 s p = 3 /\ array_size 8 s p = 0 /\ array_size 4 s (p + 4) = 0 /\ iterates 4 (range_array 4 s p) [p; p + 4; p + 8].
Proof.
  assert (R : exists s, arr_run first_fit true (seq 0) mem0 [(4, ACreateDevice 3 [1; 2; 3; 4])] = Ret (s, [MPtr 8]) /\ (bool_decide ((8, 12) ∈ heap s) && (array_size 4 s 8 =? 3) && (array_size 8 s 8 =? 0) && (array_size 4 s 12 =? 0)) = true).
  { eexists. split; vm_compute; reflexivity. }
  destruct R as (s & E & C). exists s, 8. apply andb_true_iff in C as [C H4]. apply andb_true_iff in C as [C H3]. apply andb_true_iff in C as [H1 H2].
  apply Z.eqb_eq in H2, H3, H4. split; [exact E|]. split; [exact (bool_decide_eq_true_1 _ H1)|]. split; [exact H2|]. split; [exact H3|]. split; [exact H4|].
  apply iterates_n; [lia|lia|]. rewrite H2. reflexivity.
Qed.
