(** insert(begin, end) and erase(begin, end) of the unordered containers: src/stdgpu/impl/unordered_base_detail.cuh 474-522, 996-1017, 1045-1066.
    for_each_index calls insert / erase once for every index of the range, from any number of threads, in any order and interleaving: the
    calls are distributed over programs of threads in any way.  Erase: value types with a trivial destructor (UEraseModel.v). *)
From Verif Require Import Base Conc SlotModel VectorModel UnorderedModel UConcModel UConcSpec UEraseModel.

Section range.
  Context {K V : Type} (kf : V -> K) (hash : K -> Z) (keq : K -> K -> bool) (bc E : nat).
  Inductive insert_range (u : utab V) (vs : list V) : utab V -> Prop :=
  | insert_range_run (progs : list (list (cop K V))) s ls : concat progs ≡ₚ CInsert <$> vs ->
      Conc.reach (ustep kf hash keq bc E) (shared_of u, c_start progs) (s, ls) -> all_returned ls -> insert_range u vs (utab_of bc (u_indices u) s).
  Inductive erase_range (u : utab V) (ks : list K) : utab V -> Prop :=
  | erase_range_run (progs : list (list (cop K V))) s ls : concat progs ≡ₚ CErase <$> ks ->
      Conc.reach (estep kf hash keq bc E) (shared_of u, c_start progs) (s, ls) -> all_returned ls -> erase_range u ks (utab_of bc (u_indices u) (ended s)).
End range.
