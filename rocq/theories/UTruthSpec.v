(** What the statements about the results of calls in arbitrary kernels (C81) speak about. *)
From Verif Require Import Base Conc SlotModel VectorModel UnorderedModel UnorderedSpec UConcModel UConcSpec UEraseModel UMixSpec USepSpec.

Section spec.
  Context {K V : Type} (kf : V -> K) (keq : K -> K -> bool) (E : nat).
  Notation config := (cshared V * list (cthread K V))%type.
  Notation table := (nat -> option V).
  (** the inserts and erases that reported success *)
  Definition successful (r : cret) : bool := match r with RInserted _ | RErased true => true | _ => false end.
  Definition successes (l : list (cop K V * cret)) : list (cop K V * cret) := filter (fun x => successful x.2 = true) l.
  (** their effect on the content of the container (content_of, USepSpec.v): an insert fills the entry it returns, which was free; an erase empties one
      entry with an equal key *)
  Definition effect (M : table) (x : cop K V * cret) (M' : table) : Prop :=
    match x with
    | (CInsert v, RInserted p) => M p = None /\ changes M M' p (Some v)
    | (CErase k, RErased true) => exists p v, M p = Some v /\ keq (kf v) k = true /\ changes M M' p None
    | _ => False
    end.
  Fixpoint effects (M : table) (h : list (nat * (cop K V * cret))) (M' : table) : Prop :=
    match h with
    | [] => same M M'
    | (_, x) :: h => exists M1, effect M x M1 /\ effects M1 h M'
    end.
  (** the sequence [h] has, thread by thread, exactly the calls that have returned with success, and maybe the one that is running *)
  Definition accounts_successes (ls : list (cthread K V)) (h : list (nat * (cop K V * cret))) : Prop :=
    (forall x, x ∈ h -> (x.1 < length ls)%nat) /\
    forall i t, ls !! i = Some t -> calls_of i h = successes (c_log t) \/
      exists op rest r, c_pc t <> UIdle /\ c_prog t = op :: rest /\ calls_of i h = successes (c_log t) ++ [(op, r)].
  (** a moment of the call that thread [i] makes after [m] others *)
  Definition in_call (i m : nat) (c : config) : Prop := exists t, c.2 !! i = Some t /\ length (c_log t) = m /\ c_pc t <> UIdle.
  (** at this moment a value with key [k] is in entry [p]: it is stored there, or an insert of this value is running that has written it there *)
  Definition seen_at (k : K) (p : nat) (c : config) : Prop := exists v, c_values c.1 !! p = Some (Some v) /\ keq (kf v) k = true /\
    (c_occ c.1 !! p = Some true \/ exists j u rest, c.2 !! j = Some u /\ c_prog u = CInsert v :: rest /\ c_pc u <> UIdle).
  (** size() is the number of all entries, or the vector of free excess entries reports empty() *)
  Definition no_room (c : config) : Prop := c_count c.1 = Z.of_nat (length (c_occ c.1)) \/ clamp_size (Z.of_nat E) (q_c (c_ex c.1)) = 0.
End spec.
