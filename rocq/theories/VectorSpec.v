(** Specification of a vector used by one caller: a list bounded by the capacity. *)
From Verif Require Import Base Conc SlotModel SlotSpec VectorModel.

Section spec.
  Context {T : Type} (cap : Z).
  Notation len l := (Z.of_nat (length l)).

  Definition spec_get (l : list T) (n : Z) : outcome (list T * vres T) :=
    if 0 <=? n then match l !! Z.to_nat n with Some x => Ret (l, RVal x) | None => UB end else UB.

  Definition spec_vstep (l : list T) (op : vop T) : outcome (list T * vres T) :=
    match op with
    | VPush x => if len l <? cap then Ret (l ++ [x], RBool true) else Ret (l, RBool false)
    | VPop => match last l with Some x => Ret (removelast l, ROpt (Some x)) | None => Ret (l, ROpt None) end
    | VInsert pos vals => if (pos =? len l) && (len l + len vals <=? cap) then Ret (l ++ vals, RUnit) else Ret (l, RUnit)
    | VErase b e =>
      if (e =? len l) && (0 <=? b) then (if b <=? e then Ret (take (Z.to_nat b) l, RUnit) else UB)
      else Ret (l, RUnit)
    | VClear => Ret ([], RUnit)
    | VSize => Ret (l, RNum (len l))
    | VEmpty => Ret (l, RBool (len l =? 0))
    | VFull => Ret (l, RBool (len l =? cap))
    | VIndex n | VAt n => spec_get l n
    | VFront => match head l with Some x => Ret (l, RVal x) | None => UB end
    | VBack => match last l with Some x => Ret (l, RVal x) | None => UB end
    | VRange => Ret (l, RList l)
    | VValid => Ret (l, RBool true)
    end.
  Fixpoint spec_vrun (l : list T) (ops : list (vop T)) : outcome (list T * list (vres T)) :=
    match ops with
    | [] => Ret (l, [])
    | op :: ops => let! (l1, r) := spec_vstep l op in let! (l2, rs) := spec_vrun l1 ops in Ret (l2, r :: rs)
    end.

  (** arguments whose length / offset arithmetic fits index_t *)
  Definition op_fits (op : vop T) : Prop :=
    match op with
    | VInsert _ vals => cap + len vals <= INT_MAX
    | VErase b _ => - INT_MAX + cap <= b <= INT_MAX
    | _ => True
    end.
End spec.

