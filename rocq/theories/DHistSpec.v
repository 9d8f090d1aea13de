(** Histories of a deque (queue, stack): kernels (any number of threads calling the push and pop functions concurrently) and sequences of calls of one caller,
    one after the other. *)
From Verif Require Import Base Conc SlotModel SlotSpec VectorModel VectorSpec DequeModel DequeSpec RejectProofs DDebtSpec.

Section model.
  Context {T : Type} (opt : bool) (ord : nat -> list nat) (cap : nat).
  (** the deque as a kernel sees it: the same fields; the counter of the concurrent model is not limited to 32 bits (C76) *)
  Definition d_as_shared (d : deq T) : qshared T dcnt :=
    {| q_c := {| c_n := v_n (d_v d); c_begin := d_begin d; c_end := d_end d |}; q_data := v_data (d_v d); q_occ := v_occ (d_v d); q_locks := v_locks (d_v d) |}.
  (** ... and back: kernels do not touch the array of indices of device_range() *)
  Definition d_after (d : deq T) (s : qshared T dcnt) : deq T := d_set_indices (as_deq s) (d_indices d).
  (** what happened in a phase: calls with their results; or the programs of the threads and the threads afterwards (with the results of their calls) *)
  Inductive dphase := DCalls (ops : list (dop T)) (rs : list (vres T)) | DKernel (progs : list (list (qop T))) (ls : list (qthread T)).
  (** the deque d can become d' in a phase that happens as p says *)
  Inductive dphase_run : deq T -> dphase -> deq T -> Prop :=
  | DPhase_calls d ops rs d' : deq_run opt ord d ops = Ret (d', rs) -> dphase_run d (DCalls ops rs) d'
  | DPhase_kernel d progs s ls : reach (qstep (dctl cap)) (d_as_shared d, q_start progs) (s, ls) -> quiescent ls -> - 2 ^ 31 <= c_n (q_c s) <= INT_MAX ->
      dphase_run d (DKernel progs ls) (d_after d s).
  Inductive dhistory_run : deq T -> list dphase -> deq T -> Prop :=
  | DHist_nil d : dhistory_run d [] d
  | DHist_cons d p d1 ps d2 : dphase_run d p d1 -> dhistory_run d1 ps d2 -> dhistory_run d (p :: ps) d2.
  (** the calls described by off_step (DDebtSpec.v) whatever the counter *)
  Definition dphase_fits (p : dphase) : Prop :=
    match p with DCalls ops _ => forall op k, op ∈ ops -> described opt k op | DKernel progs _ => forall pr op, pr ∈ progs -> op ∈ pr -> op_wf op end.

  (** the specification: a list and a number k by which the counter is off (DDebtSpec.v).  A kernel may leave any list that holds what was there and pushed and
      not popped, and adds the rejected pushes and subtracts the rejected pops *)
  Definition dphase_spec (l : list T) (k : Z) (p : dphase) (l' : list T) (k' : Z) : Prop :=
    match p with
    | DCalls ops rs => off_run opt (Z.of_nat cap) l k ops = Ret (l', k', rs)
    | DKernel progs ls => l ++ all_pushed ls ≡ₚ all_popped ls ++ l' /\ k' = k + rejected true progs ls - rejected false progs ls
    end /\ (length l' <= cap)%nat.
  Inductive dhistory_spec : list T -> Z -> list dphase -> list T -> Z -> Prop :=
  | DHS_nil l k : dhistory_spec l k [] l k
  | DHS_cons l k p l1 k1 ps l2 k2 : dphase_spec l k p l1 k1 -> dhistory_spec l1 k1 ps l2 k2 -> dhistory_spec l k (p :: ps) l2 k2.

  (** the plain specification: the bounded list of DequeSpec.v only; device_range() in any order *)
  Inductive plain_history : list T -> list dphase -> list T -> Prop :=
  | PH_nil l : plain_history l [] l
  | PH_calls l ops rs l1 rs1 ps l2 : spec_drun (Z.of_nat cap) l ops = Ret (l1, rs1) -> Forall2 same_result rs rs1 -> (length l1 <= cap)%nat -> plain_history l1 ps l2 ->
      plain_history l (DCalls ops rs :: ps) l2
  | PH_kernel l progs ls l1 ps l2 : l ++ all_pushed ls ≡ₚ all_popped ls ++ l1 -> (length l1 <= cap)%nat -> plain_history l1 ps l2 -> plain_history l (DKernel progs ls :: ps) l2.
  (** phases in which as many pushes as pops (for example none) are rejected after changing the counter; the calls of one caller: all but operator[], at() and back() *)
  Definition plain_op (op : dop T) : Prop :=
    match op with DIndex _ | DAt _ | DBack => False | DRange => 2 * Z.of_nat cap <= 2 ^ 31 | _ => True end.
  Definition balanced (p : dphase) : Prop :=
    match p with
    | DCalls ops _ => forall op, op ∈ ops -> plain_op op
    | DKernel progs ls => (forall pr op, pr ∈ progs -> op ∈ pr -> op_wf op) /\ rejected true progs ls = rejected false progs ls
    end.
End model.
