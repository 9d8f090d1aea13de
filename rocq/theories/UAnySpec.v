(** What the statements about arbitrary kernels (C79) speak about. *)
From Verif Require Import Base Conc SlotModel VectorModel UnorderedModel UnorderedSpec UConcModel UConcSpec UEraseModel.

Section spec.
  Context {K V : Type} (kf : V -> K) (hash : K -> Z) (keq : K -> K -> bool) (bc E : nat).
  (** one access of one thread; [trivial]: the values have a trivial destructor, destroying one leaves its bytes readable.  Otherwise reading a destroyed
      value is undefined behaviour and leaves the thread without a step *)
  Definition kernel_step (trivial : bool) : nat -> cshared V -> cthread K V -> option (cshared V * cthread K V) :=
    if trivial then estep kf hash keq bc E else ustep kf hash keq bc E.
  (** kernels one after the other, each with any number of threads that insert, erase and look keys up, each run in any interleaving to a state in which
      no call is running *)
  Inductive any_kernels (trivial : bool) : cshared V -> list (list (cthread K V)) -> cshared V -> Prop :=
  | no_any_kernel s : any_kernels trivial s [] s
  | then_any_kernel s lss s1 progs s2 ls : any_kernels trivial s lss s1 -> Conc.reach (kernel_step trivial) (s1, c_start progs) (s2, ls) -> c_quiescent ls -> any_kernels trivial s (lss ++ [ls]) s2.
  (** the values of the inserts and the keys of the erases that are running *)
  Definition running_inserts (ls : list (cthread K V)) : list V := ls ≫= fun t => match c_pc t, c_prog t with UIdle, _ => [] | _, CInsert v :: _ => [v] | _, _ => [] end.
  Definition running_erases (ls : list (cthread K V)) : list K := ls ≫= fun t => match c_pc t, c_prog t with UIdle, _ => [] | _, CErase k :: _ => [k] | _, _ => [] end.
End spec.
