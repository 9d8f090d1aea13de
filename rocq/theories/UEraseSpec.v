(** What the statements about concurrent erases and lookups (C62) speak about. *)
From Verif Require Import Base Conc SlotModel VectorModel UnorderedModel UnorderedSpec UConcModel UConcSpec.

Section spec.
  Context {K V : Type} (kf : V -> K) (hash : K -> Z) (keq : K -> K -> bool) (bc : nat).
  (** the offset of entry [p] leads to entry [x] *)
  Definition leads_to (s : cshared V) (p x : nat) : Prop := exists o, c_off s !! p = Some o /\ o <> 0 /\ Z.of_nat p + o = Z.of_nat x.
  (** a value with key [k] can be reached from the bucket of [k]: a lookup that ran alone from here would find it in entry [p] *)
  Definition present_at (s : cshared V) (k : K) (p : nat) : Prop :=
    exists b v, bucket_of hash bc k = Some b /\ rtc (leads_to s) b p /\ entry s p v /\ keq (kf v) k = true.
  Definition present (s : cshared V) (k : K) : Prop := exists p, present_at s k p.
  (** the call is an erase or a lookup *)
  Definition erases_and_lookups (progs : list (list (cop K V))) : Prop := forall prog op, prog ∈ progs -> op ∈ prog -> match op with CInsert _ => False | _ => True end.
  (** number of erase calls of key [k] that have returned 1 *)
  Definition erased_times (k : K) (ls : list (cthread K V)) : Z :=
    sumZ (fun t => sumZ (fun x => match x with (CErase k', RErased true) => if keq k' k then 1 else 0 | _ => 0 end) (c_log t)) ls.
  (** what is left of the values [M0] *)
  Definition not_erased (ls : list (cthread K V)) (M0 : list V) : list V := filter (fun v => erased_times (kf v) ls = 0) M0.
End spec.
