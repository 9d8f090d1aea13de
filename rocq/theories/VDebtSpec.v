(** Specification of a vector used by one caller after its limits were exceeded concurrently: a list bounded by the capacity and a debt, the number of
    calls that are still going to fail although there is room for a push (debt < 0) or an element to pop (debt > 0). *)
From Verif Require Import Base Conc SlotModel SlotSpec VectorModel VectorSpec.

Section spec.
  Context {T : Type} (cap : Z).
  Notation len l := (Z.of_nat (length l)).

  Definition debt_step (l : list T) (k : Z) (op : vop T) : outcome (list T * Z * vres T) :=
    let! (l', r) := spec_vstep cap l op in
    match op with
    | VPush _ => if k <? 0 then Ret (l, k + 1, RBool false) else Ret (l', k, r)
    | VPop => if 0 <? k then Ret (l, k - 1, ROpt None) else Ret (l', k, r)
    | VInsert pos vals => Ret (l', (if (pos =? len l) && (len l + len vals <=? cap) then 0 else k), r)
    | VErase b e => Ret (l', (if (e =? len l) && (0 <=? b) then 0 else k), r)
    | VClear => Ret (l', (if len l =? 0 then k else 0), r)
    | VValid => Ret (l', k, RBool (k =? 0))
    | _ => Ret (l', k, r)
    end.
  Fixpoint debt_run (l : list T) (k : Z) (ops : list (vop T)) : outcome (list T * Z * list (vres T)) :=
    match ops with
    | [] => Ret (l, k, [])
    | op :: ops => let! (l1, k1, r) := debt_step l k op in let! (l2, k2, rs) := debt_run l1 k1 ops in Ret (l2, k2, r :: rs)
    end.
End spec.
