(** Specification of a mutex array: a list of booleans, true = held. *)
From Verif Require Import Base.

(** state of the locks as a list of booleans: [bpb] bits per block *)
Definition lock_state (bpb : Z) (blocks : list Z) (size : Z) : list bool :=
  (fun n => match blocks !! Z.to_nat (n / bpb) with Some x => Z.testbit x (n mod bpb) | None => false end) <$> seqZ 0 size.

(** lock state after taking all of [ns] *)
Definition hold_all (l : list bool) (ns : list Z) : list bool := fold_left (fun l n => <[Z.to_nat n := true]> l) ns l.

(** lock number i of [ns] is not free when the locks before it in [ns] have been taken *)
Definition blocked_at (l : list bool) (ns : list Z) (i : nat) : Prop :=
  exists n, ns !! i = Some n /\ (l !! Z.to_nat n = Some true \/ n ∈ take i ns).

From Verif Require Import Conc MutexModel.

(** a log segment without the start or end of a multi-lock call *)
Definition no_calls (l : list mevent) : Prop := forall e, e ∈ l -> (forall ns, e <> EStart ns) /\ (forall ns r, e <> EEnd ns r).
