(** What the statements about kernels with one inserting and one erasing thread (C68) speak about. *)
From Verif Require Import Base Conc SlotModel VectorModel UnorderedModel UnorderedSpec UConcModel UConcSpec UEraseModel UEraseSpec.

Section spec.
  Context {K V : Type} (kf : V -> K) (hash : K -> Z) (keq : K -> K -> bool) (bc : nat).
  (** only thread [ins] inserts and only thread [ers] erases (they may be the same thread); every thread may look keys up *)
  Definition one_inserts_one_erases (ins ers : nat) (progs : list (list (cop K V))) : Prop :=
    forall i prog op, progs !! i = Some prog -> op ∈ prog -> match op with CInsert _ => i = ins | CErase _ => i = ers | CFind _ => True end.
  (** one call of insert or erase on a set of values, alone: an insert is refused for an equal key, or when all but at most one of the
      [excess] entries behind the buckets may be in use *)
  Definition call_explained (excess : nat) (M : list V) (x : cop K V * cret) (M' : list V) : Prop :=
    match x with
    | (CInsert v, RInserted _) => ~ holds kf keq M (kf v) /\ M' ≡ₚ v :: M
    | (CInsert v, RNotInserted) => (holds kf keq M (kf v) \/ (excess <= length M + 1)%nat) /\ M' ≡ₚ M
    | (CErase k, RErased true) => exists v, keq (kf v) k = true /\ M ≡ₚ v :: M'
    | (CErase k, RErased false) => ~ holds kf keq M k /\ M' ≡ₚ M
    | _ => False
    end.
  (** a sequence of calls, each with the number of the thread that makes it *)
  Fixpoint explained (excess : nat) (M : list V) (h : list (nat * (cop K V * cret))) (M' : list V) : Prop :=
    match h with
    | [] => M' ≡ₚ M
    | (_, x) :: h => exists M1, call_explained excess M x M1 /\ explained excess M1 h M'
    end.
  (** the calls of thread [i] in the sequence, and the inserts and erases among the results a thread has seen *)
  Definition calls_of (i : nat) (h : list (nat * (cop K V * cret))) : list (cop K V * cret) := (filter (fun x => x.1 = i) h).*2.
  Definition is_update (op : cop K V) : bool := match op with CFind _ => false | _ => true end.
  Definition updates (l : list (cop K V * cret)) : list (cop K V * cret) := filter (fun x => is_update x.1 = true) l.
  (** the values that can be reached from their buckets *)
  Definition in_table (s : cshared V) (v : V) : Prop := exists b p, bucket_of hash bc (kf v) = Some b /\ rtc (leads_to s) b p /\ entry s p v.
  (** the sequence [h] has, thread by thread, exactly the inserts and erases that have returned, and maybe the one that is running *)
  Definition accounts_for (ls : list (cthread K V)) (h : list (nat * (cop K V * cret))) : Prop :=
    (forall x, x ∈ h -> (x.1 < length ls)%nat) /\
    forall i t, ls !! i = Some t -> calls_of i h = updates (c_log t) \/
      exists op rest r, c_pc t <> UIdle /\ c_prog t = op :: rest /\ is_update op = true /\ calls_of i h = updates (c_log t) ++ [(op, r)].
  (** the runs of a kernel, with all states they pass *)
  Inductive visited (step : nat -> cshared V -> cthread K V -> option (cshared V * cthread K V)) (start : cshared V * list (cthread K V)) : list (cshared V * list (cthread K V)) -> cshared V * list (cthread K V) -> Prop :=
  | visit_start : visited step start [] start
  | visit_step past c c' : visited step start past c -> Conc.cstep step c c' -> visited step start (c :: past) c'.
End spec.
