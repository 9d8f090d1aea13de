(** Model of src/stdgpu/impl/bitset_detail.cuh. *)
From Verif Require Import Base BitModel AlgoModel.

(** bitset.cuh: _bit_blocks (device array of unsigned blocks of [bpb] bits) and _size. *)
Record bitset := { bs_blocks : list Z; bs_size : Z }.

Section bitset.
  (** _bits_per_block = numeric_limits<Block>::digits; index_t is 32 bit by default, so is size() *)
  Context (bpb : Z).

  (** bitset_detail.cuh 233-238 number_bit_blocks *)
  Definition number_bit_blocks (size : Z) : outcome Z := div_up size bpb.

  (** 190-204 createDeviceObject: number_bit_blocks(size) blocks filled with 0 *)
  Definition bitset_create (size : Z) : outcome bitset :=
    let! n := number_bit_blocks size in
    Ret {| bs_blocks := replicate (Z.to_nat n) 0; bs_size := size |}.

  (** 331-357 operator[]: block number and bit number of index n; bit_mod<std::size_t> on 64 bit.
      34-43 reference(): 0 <= bit_n < bits_per_block. *)
  Definition locate (b : bitset) (n : Z) : outcome (nat * Z) :=
    require (0 <=? n) && (n <? bs_size b) in
    let! bit_n := bit_mod 64 n bpb in
    require (0 <=? bit_n) && (bit_n <? bpb) in
    Ret (Z.to_nat (Z.quot n bpb), bit_n).

  (** access of a block through the pointer _bit_blocks + block_n: out of the array is UB *)
  Definition block (b : bitset) (k : nat) : outcome Z := match bs_blocks b !! k with Some x => Ret x | None => UB end.
  Definition set_block (b : bitset) (k : nat) (x : Z) : bitset :=
    {| bs_blocks := <[k := x]> (bs_blocks b); bs_size := bs_size b |}.

  (** 104-112 reference::bit: (bits & (1 << n)) != 0 *)
  Definition get_bit (bits n : Z) : bool := negb (Z.land bits (wrap bpb (Z.shiftl 1 n)) =? 0).

  (** 47-67 reference::operator=(bool): fetch_or(1 << n) or fetch_and(~(1 << n)), returns the old bit *)
  Definition ref_assign (b : bitset) (n : Z) (x : bool) : outcome (bitset * bool) :=
    let! (k, bit_n) := locate b n in
    let! old := block b k in
    let set_pattern := wrap bpb (Z.shiftl 1 bit_n) in
    let reset_pattern := wrap bpb (Z.lnot set_pattern) in
    let new := if x then Z.lor old set_pattern else Z.land old reset_pattern in
    Ret (set_block b k new, get_bit old bit_n).

  (** 92-102 reference::flip: fetch_xor(1 << n) *)
  Definition ref_flip (b : bitset) (n : Z) : outcome (bitset * bool) :=
    let! (k, bit_n) := locate b n in
    let! old := block b k in
    Ret (set_block b k (Z.lxor old (wrap bpb (Z.shiftl 1 bit_n))), get_bit old bit_n).

  (** 79-84 reference::operator bool, 331-342 / 359-365 operator[] const, test *)
  Definition ref_get (b : bitset) (n : Z) : outcome bool :=
    let! (k, bit_n) := locate b n in
    let! old := block b k in
    Ret (get_bit old bit_n).

  (** 265-273 set(n, value) *)
  Definition bitset_set (b : bitset) (n : Z) (value : bool) : outcome (bitset * bool) :=
    require (0 <=? n) && (n <? bs_size b) in ref_assign b n value.
  (** 293-301 reset(n) *)
  Definition bitset_reset (b : bitset) (n : Z) : outcome (bitset * bool) :=
    require (0 <=? n) && (n <? bs_size b) in bitset_set b n false.
  (** 321-329 flip(n) *)
  Definition bitset_flip (b : bitset) (n : Z) : outcome (bitset * bool) :=
    require (0 <=? n) && (n <? bs_size b) in ref_flip b n.

  (** 254-263 set(), 282-291 reset(): fill all blocks (device_begin .. device_end cover the allocated blocks) *)
  Definition bitset_set_all (b : bitset) : bitset :=
    {| bs_blocks := (fun _ => wrap bpb (Z.lnot 0)) <$> bs_blocks b; bs_size := bs_size b |}.
  Definition bitset_reset_all (b : bitset) : bitset :=
    {| bs_blocks := (fun _ => 0) <$> bs_blocks b; bs_size := bs_size b |}.
  (** 310-319 flip() with 162-179 flip_bits: every block i < number_bit_blocks(size) becomes ~block *)
  Definition bitset_flip_all (b : bitset) : outcome bitset :=
    let! n := number_bit_blocks (bs_size b) in
    let flip_one (acc : outcome (list Z)) (i : nat) :=
      let! bl := acc in
      match bl !! i with Some x => Ret (<[i := wrap bpb (Z.lnot x)]> bl) | None => UB end in
    let! bl := fold_left flip_one (seq 0 (Z.to_nat n)) (Ret (bs_blocks b)) in
    Ret {| bs_blocks := bl; bs_size := bs_size b |}.

  (** 130-160 count_block_bits: popcount(block_mask(i) & block[i]) *)
  Definition block_mask (size i : Z) : Z :=
    let remaining_bits := size - i * bpb in
    if bpb <=? remaining_bits then wrap bpb (Z.lnot 0)
    else wrap bpb (wrap bpb (Z.shiftl 1 remaining_bits) - 1).
  Definition count_block_bits (b : bitset) (i : nat) : outcome Z :=
    let! x := block b i in
    popcount bpb 65 (Z.land (block_mask (bs_size b) (Z.of_nat i)) x).

  (** two's complement conversion to int *)
  Definition to_int32 (x : Z) : Z := (x + 2 ^ 31) mod 2 ^ 32 - 2 ^ 31.

  (** 388-404 count(): transform_reduce_index(number_bit_blocks, 0, plus, count_block_bits); the literal 0
      makes the accumulator an int. The order of the reduction is irrelevant (C50), here a left fold. *)
  Definition bitset_count (b : bitset) : outcome Z :=
    if bs_size b =? 0 then Ret 0 else
    let! n := number_bit_blocks (bs_size b) in
    fold_left (fun acc i => let! a := acc in let! c := count_block_bits b i in Ret (to_int32 (a + c)))
              (seq 0 (Z.to_nat n)) (Ret 0).
  (** 413-467 all, any, none *)
  Definition bitset_all (b : bitset) : outcome bool :=
    if bs_size b =? 0 then Ret false else let! c := bitset_count b in Ret (c =? bs_size b).
  Definition bitset_any (b : bitset) : outcome bool :=
    if bs_size b =? 0 then Ret false else let! c := bitset_count b in Ret (0 <? c).
  Definition bitset_none (b : bitset) : outcome bool :=
    if bs_size b =? 0 then Ret false else let! c := bitset_count b in Ret (c =? 0).

  (** the public operations *)
  Inductive bs_op :=
  | BSet (n : Z) (v : bool) | BReset (n : Z) | BFlip (n : Z) | BTest (n : Z)
  | BSetAll | BResetAll | BFlipAll | BCount | BAll | BAny | BNone | BSize | BEmpty.
  Inductive bs_res := RUnit | RBool (b : bool) | RNum (n : Z).

  Definition bitset_step (b : bitset) (op : bs_op) : outcome (bitset * bs_res) :=
    match op with
    | BSet n v => let! (b', r) := bitset_set b n v in Ret (b', RBool r)
    | BReset n => let! (b', r) := bitset_reset b n in Ret (b', RBool r)
    | BFlip n => let! (b', r) := bitset_flip b n in Ret (b', RBool r)
    | BTest n => let! r := ref_get b n in Ret (b, RBool r)
    | BSetAll => Ret (bitset_set_all b, RUnit)
    | BResetAll => Ret (bitset_reset_all b, RUnit)
    | BFlipAll => let! b' := bitset_flip_all b in Ret (b', RUnit)
    | BCount => let! c := bitset_count b in Ret (b, RNum c)
    | BAll => let! r := bitset_all b in Ret (b, RBool r)
    | BAny => let! r := bitset_any b in Ret (b, RBool r)
    | BNone => let! r := bitset_none b in Ret (b, RBool r)
    | BSize => Ret (b, RNum (bs_size b))               (* 375-379 size() *)
    | BEmpty => Ret (b, RBool (bs_size b =? 0))         (* 368-372 empty() *)
    end.

  (** a caller performing a sequence of operations; results in order *)
  Fixpoint bitset_run (b : bitset) (ops : list bs_op) : outcome (bitset * list bs_res) :=
    match ops with
    | [] => Ret (b, [])
    | op :: ops => let! (b1, r) := bitset_step b op in let! (b2, rs) := bitset_run b1 ops in Ret (b2, r :: rs)
    end.

  (** concurrent callers: locate is pure, so set/reset/flip(n) and test(n) perform exactly one atomic access
      (fetch_or, fetch_and, fetch_xor or load of one block, 47-102): the call is one atomic step. None: contract
      violated.  The whole-array operations are launched from the host and are not concurrent with the others. *)
  Definition conc_step (b : bitset) (op : bs_op) : option (bitset * bs_res) :=
    match op with
    | BSet _ _ | BReset _ | BFlip _ | BTest _ | BSize | BEmpty =>
        match bitset_step b op with Ret r => Some r | _ => None end
    | _ => None
    end.
End bitset.
