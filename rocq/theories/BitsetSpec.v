(** Specification of a bitset: an array (list) of booleans. *)
From Verif Require Import Base BitsetModel.

Definition count_true (l : list bool) : Z := Z.of_nat (length (filter (fun b => b = true) l)).

(** index as list position; None if out of range *)
Definition idx (l : list bool) (n : Z) : option nat :=
  if (0 <=? n) && (n <? Z.of_nat (length l)) then Some (Z.to_nat n) else None.

Definition spec_update (l : list bool) (n : Z) (f : bool -> bool) : outcome (list bool * bs_res) :=
  match idx l n with
  | None => UB
  | Some k => match l !! k with None => UB | Some old => Ret (<[k := f old]> l, RBool old) end
  end.

Definition spec_step (l : list bool) (op : bs_op) : outcome (list bool * bs_res) :=
  match op with
  | BSet n v => spec_update l n (fun _ => v)
  | BReset n => spec_update l n (fun _ => false)
  | BFlip n => spec_update l n negb
  | BTest n => spec_update l n (fun b => b)
  | BSetAll => Ret ((fun _ => true) <$> l, RUnit)
  | BResetAll => Ret ((fun _ => false) <$> l, RUnit)
  | BFlipAll => Ret (negb <$> l, RUnit)
  | BCount => Ret (l, RNum (count_true l))
  | BAll => Ret (l, RBool (negb (length l =? 0)%nat && (count_true l =? Z.of_nat (length l))))
  | BAny => Ret (l, RBool (negb (length l =? 0)%nat && (0 <? count_true l)))
  | BNone => Ret (l, RBool (negb (length l =? 0)%nat && (count_true l =? 0)))
  | BSize => Ret (l, RNum (Z.of_nat (length l)))
  | BEmpty => Ret (l, RBool (length l =? 0)%nat)
  end.

Fixpoint spec_run (l : list bool) (ops : list bs_op) : outcome (list bool * list bs_res) :=
  match ops with
  | [] => Ret (l, [])
  | op :: ops => let! (l1, r) := spec_step l op in let! (l2, rs) := spec_run l1 ops in Ret (l2, r :: rs)
  end.

(** the specification as an atomic object; None: the call violates its contract *)
Definition spec_ostep (l : list bool) (op : bs_op) : option (list bool * bs_res) :=
  match spec_step l op with Ret r => Some r | _ => None end.

(** calls that cannot clear or toggle bit n *)
Definition keeps_bit (n : Z) (op : bs_op) : Prop :=
  match op with
  | BSet m v => m = n -> v = true
  | BReset m | BFlip m => m <> n
  | BSetAll | BResetAll | BFlipAll => False
  | _ => True
  end.

(** number of set(n) calls in a log that saw the bit clear *)
Global Instance bs_op_eq_dec : EqDecision bs_op.
Proof. solve_decision. Defined.
Global Instance bs_res_eq_dec : EqDecision bs_res.
Proof. solve_decision. Defined.
Definition wins (n : Z) (log : list (bs_op * bs_res)) : Z :=
  Z.of_nat (length (filter (fun e => e = (BSet n true, RBool false)) log)).
