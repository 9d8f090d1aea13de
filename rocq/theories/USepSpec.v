(** What the statements about kernels whose keys do not collide (C78) speak about. *)
From Verif Require Import Base Conc SlotModel VectorModel UnorderedModel UnorderedSpec UConcModel UConcSpec UEraseModel UEraseSpec UMixSpec.

Section spec.
  Context {K V : Type} (kf : V -> K) (hash : K -> Z) (keq : K -> K -> bool) (bc E : nat).
  (** thread [i] makes the call [op] in the kernel *)
  Definition makes (progs : list (list (cop K V))) (i : nat) (op : cop K V) : Prop := exists prog, progs !! i = Some prog /\ op ∈ prog.
  Definition key_used (progs : list (list (cop K V))) (k : K) : Prop := exists i op, makes progs i op /\ op_key kf op = k.
  (** the calls of a kernel that starts in state [s] do not collide: a bucket that they use has no linked list, a value stored in it has the key they use,
      they use one key per bucket, and a key that some thread erases is inserted by one thread only.  Nothing is said about the other buckets *)
  Definition separate (s : cshared V) (progs : list (list (cop K V))) : Prop :=
    (forall k b, key_used progs k -> bucket_of hash bc k = Some b -> c_off s !! b = Some 0 /\ forall v, entry s b v -> keq (kf v) k = true) /\
    (forall k1 k2, key_used progs k1 -> key_used progs k2 -> bucket_of hash bc k1 = bucket_of hash bc k2 -> keq k1 k2 = true) /\
    (forall i j l v w k, makes progs i (CInsert v) -> makes progs j (CInsert w) -> makes progs l (CErase k) -> keq (kf v) k = true -> keq (kf w) k = true -> i = j).

  (** the content of the container: the value of every entry, [None] for the entries not in use *)
  Notation table := (nat -> option V).
  Definition content_of (s : cshared V) : table := fun p => match (c_occ s !! p : option bool), c_values s !! p with Some true, Some (Some v) => Some v | _, _ => None end.
  Definition has_key (M : table) (k : K) : Prop := exists p v, M p = Some v /\ keq (kf v) k = true.
  Definition same (M M' : table) : Prop := forall p, M' p = M p.
  Definition changes (M M' : table) (p : nat) (o : option V) : Prop := forall q, M' q = if decide (q = p) then o else M q.
  (** one call alone on a set of values with distinct keys, exactly *)
  Definition set_call (M : table) (x : cop K V * cret) (M' : table) : Prop :=
    match x with
    | (CInsert v, RInserted p) => ~ has_key M (kf v) /\ M p = None /\ changes M M' p (Some v)
    | (CInsert v, RNotInserted) => has_key M (kf v) /\ same M M'
    | (CErase k, RErased true) => exists p v, M p = Some v /\ keq (kf v) k = true /\ changes M M' p None
    | (CErase k, RErased false) => ~ has_key M k /\ same M M'
    | (CFind k, RFound (Some p)) => (exists v, M p = Some v /\ keq (kf v) k = true) /\ same M M'
    | (CFind k, RFound None) => ~ has_key M k /\ same M M'
    | _ => False
    end.
  (** a sequence of calls, each with the number of the thread that makes it *)
  Fixpoint set_calls (M : table) (h : list (nat * (cop K V * cret))) (M' : table) : Prop :=
    match h with
    | [] => same M M'
    | (_, x) :: h => exists M1, set_call M x M1 /\ set_calls M1 h M'
    end.
  (** the sequence [h] has, thread by thread, exactly the calls that have returned, with their results, and maybe the one that is running *)
  Definition accounts_all (ls : list (cthread K V)) (h : list (nat * (cop K V * cret))) : Prop :=
    (forall x, x ∈ h -> (x.1 < length ls)%nat) /\
    forall i t, ls !! i = Some t -> calls_of i h = c_log t \/
      exists op rest r, c_pc t <> UIdle /\ c_prog t = op :: rest /\ calls_of i h = c_log t ++ [(op, r)].
  (** kernels one after the other, each without collisions, each run in any interleaving to a state in which no call is running *)
  Inductive separate_kernels : cshared V -> list (list (cthread K V)) -> cshared V -> Prop :=
  | sk_none s : separate_kernels s [] s
  | sk_then s lss s1 progs s2 ls : separate_kernels s lss s1 -> separate s1 progs -> Conc.reach (estep kf hash keq bc E) (s1, c_start progs) (s2, ls) -> c_quiescent ls -> separate_kernels s (lss ++ [ls]) s2.
End spec.
