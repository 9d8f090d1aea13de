(** Histories of a vector: kernels (any number of threads calling push_back/pop_back concurrently) and sequences of calls of one caller, one after
    the other. *)
From Verif Require Import Base Conc SlotModel SlotSpec VectorModel VectorSpec RejectProofs VDebtSpec.

Section model.
  Context {T : Type} (opt : bool) (ord : nat -> list nat) (cap : nat).
  (** the vector as a kernel sees it: the same fields; the counter of the concurrent model is not limited to 32 bits (C76) *)
  Definition as_shared (v : vec T) : qshared T Z := {| q_c := v_n v; q_data := v_data v; q_occ := v_occ v; q_locks := v_locks v |}.
  (** what happened in a phase: calls with their results; or the programs of the threads and the threads afterwards (with the results of their calls) *)
  Inductive phase := Calls (ops : list (vop T)) (rs : list (vres T)) | Kernel (progs : list (list (qop T))) (ls : list (qthread T)).
  (** the vector v can become v' in a phase that happens as p says *)
  Inductive phase_run : vec T -> phase -> vec T -> Prop :=
  | Phase_calls v ops rs v' : vec_run opt ord v ops = Ret (v', rs) -> phase_run v (Calls ops rs) v'
  | Phase_kernel v progs s ls : reach (qstep (vctl cap)) (as_shared v, q_start progs) (s, ls) -> quiescent ls -> - 2 ^ 31 <= q_c s <= INT_MAX ->
      phase_run v (Kernel progs ls) (as_vec s).
  Inductive history_run : vec T -> list phase -> vec T -> Prop :=
  | Hist_nil v : history_run v [] v
  | Hist_cons v p v1 ps v2 : phase_run v p v1 -> history_run v1 ps v2 -> history_run v (p :: ps) v2.
  (** calls whose arguments fit index_t (C18); vectors have push_back and pop_back only *)
  Definition phase_fits (p : phase) : Prop :=
    match p with Calls ops _ => forall op, op ∈ ops -> op_fits (Z.of_nat cap) op | Kernel progs _ => forall pr op, pr ∈ progs -> op ∈ pr -> vector_call op end.

  (** the specification: a list and a debt (VDebtSpec.v).  A kernel may leave any list that holds what was there and pushed and not popped, and adds the
      rejected pushes and subtracts the rejected pops to the debt; a debt is only possible if the list is full (pops to fail) or empty (pushes to fail) *)
  Definition phase_spec (l : list T) (k : Z) (p : phase) (l' : list T) (k' : Z) : Prop :=
    match p with
    | Calls ops rs => debt_run (Z.of_nat cap) l k ops = Ret (l', k', rs)
    | Kernel progs ls => l ++ all_pushed ls ≡ₚ all_popped ls ++ l' /\ k' = k + rejected true progs ls - rejected false progs ls
    end /\ (length l' <= cap)%nat /\ (0 < k' -> length l' = cap) /\ (k' < 0 -> l' = []).
  Inductive history_spec : list T -> Z -> list phase -> list T -> Z -> Prop :=
  | HS_nil l k : history_spec l k [] l k
  | HS_cons l k p l1 k1 ps l2 k2 : phase_spec l k p l1 k1 -> history_spec l1 k1 ps l2 k2 -> history_spec l k (p :: ps) l2 k2.
End model.
