(** What the statements about kernels with one erasing thread (C67) speak about. *)
From Verif Require Import Base Conc SlotModel VectorModel UnorderedModel UnorderedSpec UConcModel UConcSpec UEraseModel.

Section spec.
  Context {K V : Type} (kf : V -> K) (hash : K -> Z) (keq : K -> K -> bool) (bc E : nat).
  (** only thread [ers] erases; every thread may insert and look keys up *)
  Definition one_erases (ers : nat) (progs : list (list (cop K V))) : Prop := forall i prog k, progs !! i = Some prog -> CErase k ∈ prog -> i = ers.
  (** the values in the container: those of its occupied entries, in the order of device_range *)
  Definition stored_values (s : cshared V) : list V := omap (fun x => x) (zip_with (fun (o : bool) (v : option V) => if o then v else None) (c_occ s) (c_values s)).
  (** the keys whose erase has returned 1, with repetitions *)
  Definition erased_keys (ls : list (cthread K V)) : list K :=
    ls ≫= fun t => omap (fun x => match x with (CErase k, RErased true) => Some k | _ => None end) (c_log t).
  (** kernels one after the other, each with at most one erasing thread, each run in any interleaving to a state in which no call is running *)
  Inductive kernels : cshared V -> list (list (cthread K V)) -> cshared V -> Prop :=
  | no_kernel s : kernels s [] s
  | then_kernel s lss s1 ers progs s2 ls : kernels s lss s1 -> one_erases ers progs -> Conc.reach (estep kf hash keq bc E) (s1, c_start progs) (s2, ls) -> c_quiescent ls -> kernels s (lss ++ [ls]) s2.
End spec.
