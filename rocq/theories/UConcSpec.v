(** What the statements about concurrent inserts and lookups (C37) speak about. *)
From Verif Require Import Base Conc SlotModel VectorModel UnorderedModel UnorderedSpec UConcModel.

Section spec.
  Context {K V : Type}.
  (** entry [p] of the container is in use and holds [v] *)
  Definition entry (s : cshared V) (p : nat) (v : V) : Prop := c_values s !! p = Some (Some v) /\ c_occ s !! p = Some true.
  (** the call is an insert or a lookup *)
  Definition inserts_and_lookups (progs : list (list (cop K V))) : Prop := forall prog op, prog ∈ progs -> op ∈ prog -> match op with CErase _ => False | _ => True end.
  (** the results of the calls that have returned, per thread *)
  Definition result (ls : list (cthread K V)) (op : cop K V) (r : cret) : Prop := exists t, t ∈ ls /\ (op, r) ∈ c_log t.
  (** the values whose insert has returned success, with repetitions *)
  Definition inserted_values (ls : list (cthread K V)) : list V :=
    ls ≫= fun t => omap (fun x => match x with (CInsert v, RInserted _) => Some v | _ => None end) (c_log t).
  Definition all_returned (ls : list (cthread K V)) : Prop := forall t, t ∈ ls -> c_prog t = [] /\ c_pc t = UIdle.
  (** the values in the container, each once *)
  Definition content (kf : V -> K) (keq : K -> K -> bool) (s : cshared V) (M : list V) : Prop := keys_distinct kf keq M /\ forall v, v ∈ M <-> exists p, entry s p v.
  (** number of insert calls of the programs *)
  Definition insert_calls (progs : list (list (cop K V))) : nat :=
    length (progs ≫= fun prog => omap (fun op => match op with CInsert v => Some v | _ => None end) prog).
End spec.
