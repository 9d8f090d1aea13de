(** What loop_free() is meant to decide *)
From Verif Require Import Base Conc LoopModel CollectSpec.

(** the linked list that starts at entry p: an entry links to the entry [offset] further; offset 0 ends the list *)
Inductive entries (off : list Z) : nat -> list nat -> Prop :=
| LastEntry p : off !! p = Some 0 -> entries off p [p]
| LinkedEntry p o q l : off !! p = Some o -> o <> 0 -> Z.of_nat q = Z.of_nat p + o -> entries off q l -> entries off p (p :: l).
(** the lists of all buckets end (no list runs in a circle) and no entry is in two of them, or twice in one *)
Definition lists_separate (off : list Z) (buckets : nat) : Prop :=
  exists lists, length lists = buckets /\ (forall b l, lists !! b = Some l -> entries off b l) /\ NoDup (concat lists).
(** what offset_range_valid, evaluated before loop_free (unordered_base_detail.cuh 1211), has found out *)
Definition links_inside (off : list Z) : Prop := forall p o, off !! p = Some o -> 0 <= Z.of_nat p + o < Z.of_nat (length off).
(** all threads have run all their indices *)
Definition visited (ts : list visit_thread) : Prop := forall t, t ∈ ts -> t = ([], VHead).
