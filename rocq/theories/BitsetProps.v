(** Property theorems C12, C13, C14, C54 (second part): bitset.cuh *)
From Verif Require Import Base Conc BitModel BitSpec AlgoModel BitsetModel BitsetSpec BitsetProofs.

(** C12: for every power-of-two block width, size and sequence of calls, the bitset created with that size
    returns exactly the results of the same calls on a list of booleans (BitsetSpec.spec_run), and violates a
    contract exactly when an index is out of range. *)
Theorem C12_bitset_is_bool_array : forall bpb, is_pow2 64 bpb -> bpb <= 64 ->
  forall size (ops : list bs_op), 0 <= size < 2 ^ 31 ->
  exists b0, bitset_create bpb size = Ret b0 /\
    match spec_run (replicate (Z.to_nat size) false) ops with
    | Ret (_, rs) => exists b', bitset_run bpb b0 ops = Ret (b', rs)
    | UB => bitset_run bpb b0 ops = UB
    | Hang => False
    end.
Proof. exact history_refines. Qed.
Print Assumptions C12_bitset_is_bool_array.
Example C12_ex : exists b0 b', bitset_create 32 33 = Ret b0 /\
  bitset_run 32 b0 [BSet 32 true; BTest 31; BFlip 32; BFlipAll; BReset 5; BTest 5; BCount; BSetAll; BAll; BFlipAll; BNone; BAny]
   = Ret (b', [RBool false; RBool false; RBool true; RUnit; RBool true; RBool false; RNum 32; RUnit; RBool true; RUnit; RBool true; RBool false]).
Proof. eexists _, _. split; [vm_compute; reflexivity|]. vm_compute. reflexivity. Qed.
Example C12_ex_width : is_pow2 64 32 /\ is_pow2 64 8 /\ is_pow2 64 64.
Proof. split; [exists 5; split; [lia|reflexivity]|]. split; [exists 3; split; [lia|reflexivity]|exists 6; split; [lia|reflexivity]]. Qed.

(** C13: count/all/any/none after any history, in terms of the bits the caller wrote. *)
Theorem C13_counts_valid_bits_only : forall bpb, is_pow2 64 bpb -> bpb <= 64 ->
  forall size (ops : list bs_op) b0 b rs bits, 0 <= size < 2 ^ 31 ->
  bitset_create bpb size = Ret b0 -> bitset_run bpb b0 ops = Ret (b, rs) ->
  spec_run (replicate (Z.to_nat size) false) ops = Ret (bits, rs) ->
  let trues := Z.of_nat (length (filter (fun x => x = true) bits)) in
  bitset_count bpb b = Ret trues /\
  bitset_all bpb b = Ret ((0 <? size) && (trues =? size)) /\
  bitset_any bpb b = Ret ((0 <? size) && (0 <? trues)) /\
  bitset_none bpb b = Ret ((0 <? size) && (trues =? 0)).
Proof. exact counts_after. Qed.
Print Assumptions C13_counts_valid_bits_only.
(** the bound size < 2^31 always holds with the default 32 bit index type.  With 64 bit indices count() still
    sums in an int and wraps: *)
Theorem C13_int_accumulator_wraps : forall bpb, is_pow2 64 bpb -> bpb <= 64 -> exists b0 b,
  bitset_create bpb (2 ^ 31) = Ret b0 /\ b = bitset_set_all bpb b0 /\ bitset_count bpb b = Ret (- 2 ^ 31).
Proof. exact count_wraps. Qed.
Print Assumptions C13_int_accumulator_wraps.

(** C14: at every reachable moment of every interleaving, the results returned so far and the current bits are
    those of a sequential execution on a list of booleans that respects each thread's program order. *)
Theorem C14_concurrent_bits : forall bpb, is_pow2 64 bpb -> bpb <= 64 ->
  forall size (progs : list (list bs_op)) b0 b h ls, 0 <= size < 2 ^ 31 ->
  bitset_create bpb size = Ret b0 ->
  reach (obj_step (conc_step bpb)) (obj_init b0 progs) ((b, h), ls) ->
  seq_exec spec_ostep (replicate (Z.to_nat size) false) h
     ((fun n => match bs_blocks b !! Z.to_nat (n / bpb) with Some x => Z.testbit x (n mod bpb) | None => false end) <$> seqZ 0 (bs_size b)) /\
  (forall i l, ls !! i = Some l -> o_log l = hist_of i h /\ progs !! i = Some ((o_log l).*1 ++ o_prog l)).
Proof. exact concurrent_bits. Qed.
Print Assumptions C14_concurrent_bits.
(** ... and of all the set(n) calls on an initially clear bit (no other call clearing or toggling it), exactly
    one has seen it clear as soon as at least one of them has returned. *)
Theorem C14_one_winner : forall bpb, is_pow2 64 bpb -> bpb <= 64 ->
  forall size (progs : list (list bs_op)) b0 b h ls n,
  0 <= n < size -> size < 2 ^ 31 -> bitset_create bpb size = Ret b0 ->
  (forall p op, p ∈ progs -> op ∈ p -> keeps_bit n op) ->
  reach (obj_step (conc_step bpb)) (obj_init b0 progs) ((b, h), ls) ->
  let total := sumZ (fun t => wins n (o_log t)) ls in
  total <= 1 /\ ((exists t r, t ∈ ls /\ (BSet n true, r) ∈ o_log t) -> total = 1).
Proof. exact one_winner. Qed.
Print Assumptions C14_one_winner.
Example C14_ex : exists b h ls,
  reach (obj_step (conc_step 8)) (obj_init {| bs_blocks := [0; 0]; bs_size := 12 |} [[BSet 9 true; BFlip 8]; [BSet 9 true]])
    ((b, h), ls) /\ map o_log ls = [[(BSet 9 true, RBool true); (BFlip 8, RBool false)]; [(BSet 9 true, RBool false)]].
Proof. eexists _, _, _. split; [apply (run_reach _ [1; 0; 0]%nat); vm_compute; reflexivity|]. reflexivity. Qed.

(** C54: a bitset of [size] bits owns the least number of blocks that can hold them, and every index below
    [size] addresses a bit inside an owned block, distinct indices distinct bits. *)
Theorem C54_blocks_cover : forall bpb, is_pow2 64 bpb -> bpb <= 64 ->
  forall size, 0 <= size < 2 ^ 63 ->
  exists b, bitset_create bpb size = Ret b /\
    let n := Z.of_nat (length (bs_blocks b)) in
    size <= n * bpb /\ (forall m, size <= m * bpb -> n <= m) /\
    (forall i, 0 <= i < size -> exists k bit_n x, locate bpb b i = Ret (k, bit_n) /\ bs_blocks b !! k = Some x /\
        0 <= bit_n < bpb /\ i = Z.of_nat k * bpb + bit_n).
Proof. exact create_blocks. Qed.
Print Assumptions C54_blocks_cover.
