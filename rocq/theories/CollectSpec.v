(** What is said about the kernel of device_range() *)
From Verif Require Import Base Conc BitsetModel UnorderedModel CollectModel.

(** the indices 0 .. n-1 dealt to threads in any way: each index to one thread, in any order *)
Definition dealt (n : nat) (progs : list (list nat)) : Prop := concat progs ≡ₚ seq 0 n.
(** all threads have run all their indices *)
Definition collected (ts : list collect_thread) : Prop := forall t, t ∈ ts -> t = ([], CTest).
(** the positions p with occupied(p) *)
Definition occupied_in (occ : list bool) : list nat := filter (fun p => occ !! p = Some true) (seq 0 (length occ)).
