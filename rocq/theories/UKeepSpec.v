(** What the statements about keys that no erase concerns (C80) speak about. *)
From Verif Require Import Base Conc SlotModel VectorModel UnorderedModel UnorderedSpec UConcModel UConcSpec UEraseModel UAnySpec.

Section spec.
  Context {K V : Type} (kf : V -> K) (hash : K -> Z) (keq : K -> K -> bool) (bc E : nat).
  (** the key [k] is stored at entry [p], with value [v] *)
  Definition stored_at (s : cshared V) (k : K) (p : nat) (v : V) : Prop := c_values s !! p = Some (Some v) /\ c_occ s !! p = Some true /\ keq (kf v) k = true.
  (** the erases of a kernel spare the key [k] stored at [p]: they are of keys with other buckets; if [k] is stored at the index of its bucket, they may
      also be of other keys of this bucket.  Nothing is said about inserts and lookups *)
  Definition spares (k : K) (p : nat) (progs : list (list (cop K V))) : Prop := forall prog k', prog ∈ progs -> CErase k' ∈ prog ->
    bucket_of hash bc k' <> bucket_of hash bc k \/ (bucket_of hash bc k = Some p /\ keq k' k = false).
  (** kernels one after the other whose erases spare the key, each run in any interleaving to a state in which no call is running *)
  Inductive sparing_kernels (trivial : bool) (k : K) (p : nat) : cshared V -> list (list (cthread K V)) -> cshared V -> Prop :=
  | no_sparing_kernel s : sparing_kernels trivial k p s [] s
  | then_sparing_kernel s lss s1 progs s2 ls : sparing_kernels trivial k p s lss s1 -> spares k p progs -> Conc.reach (kernel_step kf hash keq bc E trivial) (s1, c_start progs) (s2, ls) -> c_quiescent ls -> sparing_kernels trivial k p s (lss ++ [ls]) s2.
  (** a call with a key equal to [k] that has returned: a lookup returned [p], an insert reported that the key is there *)
  Definition sees_key (k : K) (p : nat) (ls : list (cthread K V)) : Prop := forall t x, t ∈ ls -> x ∈ c_log t ->
    match x.1 with CFind k' => keq k' k = true -> x.2 = RFound (Some p) | CInsert w => keq (kf w) k = true -> x.2 = RNotInserted | CErase _ => True end.
  (** how often thread [i] runs *)
  Definition turns (i : nat) (sched : list nat) : nat := length (filter (fun j => j = i) sched).
End spec.
