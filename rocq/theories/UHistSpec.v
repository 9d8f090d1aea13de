(** Histories of an unordered container used in phases: calls of one caller, kernels whose threads insert and look up, kernels whose threads
    erase and look up.  What they should do to the content, as a finite set of values with distinct keys. *)
From Verif Require Import Base Conc SlotModel VectorModel UnorderedModel UnorderedSpec UConcModel UConcSpec UEraseModel UEraseSpec.

(** a phase with what was observed: the results of the calls, the threads of a kernel with their logs of (call, result) *)
Inductive phase (K V : Type) :=
| Calls (ops : list (uop K V)) (rs : list (ures V))
| InsertKernel (progs : list (list (cop K V))) (ls : list (cthread K V))
| EraseKernel (progs : list (list (cop K V))) (ls : list (cthread K V)).
Arguments Calls {K V} ops rs.
Arguments InsertKernel {K V} progs ls.
Arguments EraseKernel {K V} progs ls.

Section hist.
  Context {K V : Type} (kf : V -> K) (hash : K -> Z) (keq : K -> K -> bool) (ord : nat -> list nat) (fuel bc E : nat).
  (** what can happen: kernels start on the container as it is, their threads run in any interleaving until all calls have returned.
      A kernel that inserts has at most as many insert calls as the container has free excess entries (see C37).  Value types have trivial
      destructors ([true]; see UEraseModel.v). *)
  Inductive phase_run (u : utab V) : phase K V -> utab V -> Prop :=
  | run_calls ops rs u' : Forall (uop_ok (Z.of_nat bc)) ops -> u_run kf hash keq true ord fuel u ops = Ret (u', rs) -> phase_run u (Calls ops rs) u'
  | run_inserts progs s ls : inserts_and_lookups progs -> Z.of_nat (insert_calls progs) <= v_size (u_excess u) ->
      Conc.reach (ustep kf hash keq bc E) (shared_of u, c_start progs) (s, ls) -> all_returned ls -> phase_run u (InsertKernel progs ls) (utab_of bc (u_indices u) s)
  | run_erases progs s ls : erases_and_lookups progs ->
      Conc.reach (estep kf hash keq bc E) (shared_of u, c_start progs) (s, ls) -> all_returned ls -> phase_run u (EraseKernel progs ls) (utab_of bc (u_indices u) (ended s)).
  Inductive history : list (phase K V) -> utab V -> Prop :=
  | created junk u : unordered_create ord junk (Z.of_nat bc) (Z.of_nat E) = Ret u -> history [] u
  | then_phase H u ph u' : history H u -> phase_run u ph u' -> history (H ++ [ph]) u'.

  (** what should happen to the content [M]; every call of a kernel has exactly one result *)
  Context (bucket : K -> Z).
  Definition answered (progs : list (list (cop K V))) (ls : list (cthread K V)) : Prop := Forall2 (fun prog t => (c_log t).*1 = prog) progs ls.
  Definition spec_phase (M : list V) (ph : phase K V) (M' : list V) : Prop :=
    match ph with
    | Calls ops rs => spec_urun kf keq bucket (Z.of_nat (bc + E)) M ops rs M'
    | InsertKernel progs ls => answered progs ls /\
      M' ≡ₚ M ++ inserted_values ls /\ keys_distinct kf keq M' /\
      (forall v, result ls (CInsert v) RNotInserted -> holds kf keq M' (kf v)) /\
      (forall k p, result ls (CFind k) (RFound (Some p)) -> holds kf keq M' k) /\
      (forall k, result ls (CFind k) (RFound None) -> ~ holds kf keq M k)
    | EraseKernel progs ls => answered progs ls /\
      M' ≡ₚ not_erased kf keq ls M /\
      (forall k, 0 <= erased_times keq k ls <= 1 /\ (erased_times keq k ls = 1 -> holds kf keq M k)) /\
      (forall k, result ls (CErase k) (RErased false) -> ~ holds kf keq M' k) /\
      (forall k p, result ls (CFind k) (RFound (Some p)) -> holds kf keq M k) /\
      (forall k, result ls (CFind k) (RFound None) -> ~ holds kf keq M' k)
    end.
  Fixpoint spec_phases (M : list V) (H : list (phase K V)) (M' : list V) : Prop :=
    match H with [] => M' = M | ph :: H => exists M1, spec_phase M ph M1 /\ spec_phases M1 H M' end.
End hist.
