(** Specification of a deque used by one caller after its limits were exceeded concurrently: a list bounded by the capacity and a number k by which the
    size counter is off.  [Hang]: the call never returns; [UB]: it destroys an object that does not exist. *)
From Verif Require Import Base Conc SlotModel SlotSpec VectorModel VectorSpec DequeModel DequeSpec.

Section spec.
  Context {T : Type} (opt : bool) (cap : Z).
  Notation len l := (Z.of_nat (length l)).

  Definition off_push (l : list T) (k : Z) (l' : list T) : outcome (list T * Z * vres T) :=
    if cap <=? len l + k then Ret (l, k, RBool false)
    else if len l <? cap then Ret (l', k, RBool true) else Hang.
  Definition off_pop (l : list T) (k : Z) (o : option T) (l' : list T) : outcome (list T * Z * vres T) :=
    if len l + k <=? 0 then Ret (l, k, ROpt None)
    else match o with Some y => Ret (l', k, ROpt (Some y)) | None => Hang end.
  Definition off_step (l : list T) (k : Z) (op : dop T) : outcome (list T * Z * vres T) :=
    match op with
    | DPushBack x => off_push l k (l ++ [x])
    | DPushFront x => off_push l k (x :: l)
    | DPopBack => off_pop l k (last l) (removelast l)
    | DPopFront => off_pop l k (head l) (tail l)
    | DSize => Ret (l, k, RNum (Z.max 0 (Z.min cap (len l + k))))
    | DEmpty => Ret (l, k, RBool (len l + k <=? 0))
    | DFull => Ret (l, k, RBool (cap <=? len l + k))
    | DValid => Ret (l, k, RBool (k =? 0))
    | DFront => match head l with Some x => Ret (l, k, RVal x) | None => UB end
    | DClear => if len l + k <=? 0 then Ret (l, k, RUnit)
                else if opt then Ret ([], 0, RUnit)
                else if (cap <=? len l + k) && (len l <? cap) then UB
                else Ret ([], 0, RUnit)
    | _ => UB
    end.
  Fixpoint off_run (l : list T) (k : Z) (ops : list (dop T)) : outcome (list T * Z * list (vres T)) :=
    match ops with
    | [] => Ret (l, k, [])
    | op :: ops => let! (l1, k1, r) := off_step l k op in let! (l2, k2, rs) := off_run l1 k1 ops in Ret (l2, k2, r :: rs)
    end.
  (** the calls described by [off_step].  A clear() that has to destroy elements is not if the counter is too small (k < 0): see C83_clear_forgets_elements_refuted *)
  Definition described (k : Z) (op : dop T) : Prop :=
    match op with
    | DPushBack _ | DPushFront _ | DPopBack | DPopFront | DSize | DEmpty | DFull | DValid | DFront => True
    | DClear => opt = true \/ 0 <= k
    | _ => False
    end.
End spec.
