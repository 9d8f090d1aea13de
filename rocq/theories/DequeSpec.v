(** Specification of a deque used by one caller: a list bounded by the capacity, open at both ends. *)
From Verif Require Import Base Conc SlotModel SlotSpec VectorModel VectorSpec DequeModel.

Section spec.
  Context {T : Type} (cap : Z).
  Notation len l := (Z.of_nat (length l)).

  Definition spec_dstep (l : list T) (op : dop T) : outcome (list T * vres T) :=
    match op with
    | DPushBack x => if len l <? cap then Ret (l ++ [x], RBool true) else Ret (l, RBool false)
    | DPopBack => match last l with Some x => Ret (removelast l, ROpt (Some x)) | None => Ret (l, ROpt None) end
    | DPushFront x => if len l <? cap then Ret (x :: l, RBool true) else Ret (l, RBool false)
    | DPopFront => match l with x :: l' => Ret (l', ROpt (Some x)) | [] => Ret (l, ROpt None) end
    | DClear => Ret ([], RUnit)
    | DSize => Ret (l, RNum (len l))
    | DEmpty => Ret (l, RBool (len l =? 0))
    | DFull => Ret (l, RBool (len l =? cap))
    | DIndex n | DAt n => spec_get l n
    | DFront => match head l with Some x => Ret (l, RVal x) | None => UB end
    | DBack => match last l with Some x => Ret (l, RVal x) | None => UB end
    | DRange => Ret (l, RList l)
    | DValid => Ret (l, RBool true)
    end.
  Fixpoint spec_drun (l : list T) (ops : list (dop T)) : outcome (list T * list (vres T)) :=
    match ops with
    | [] => Ret (l, [])
    | op :: ops => let! (l1, r) := spec_dstep l op in let! (l2, rs) := spec_drun l1 ops in Ret (l2, r :: rs)
    end.

  (** results agree; the elements of a device_range() in any order *)
  Definition same_result (r r' : vres T) : Prop :=
    match r, r' with RList l, RList l' => l ≡ₚ l' | _, _ => r = r' end.
  (** calls whose position arithmetic begin + n fits index_t in every state; at() is excluded, see C24 *)
  Definition dop_fits (op : dop T) : Prop :=
    match op with
    | DAt _ => False
    | DIndex _ | DBack | DRange => 2 * cap <= 2 ^ 31
    | _ => True
    end.

  (** queue and stack: what push and pop return, and the content (front first for the queue, top last for the stack) *)
  Definition spec_queue (l : list T) (op : aqop T) : list T * vres T :=
    match op with
    | APush x => if len l <? cap then (l ++ [x], RBool true) else (l, RBool false)
    | APop => match l with x :: l' => (l', ROpt (Some x)) | [] => ([], ROpt None) end
    end.
  (** content with the top first *)
  Definition spec_stack (l : list T) (op : aqop T) : list T * vres T :=
    match op with
    | APush x => if len l <? cap then (x :: l, RBool true) else (l, RBool false)
    | APop => match l with x :: l' => (l', ROpt (Some x)) | [] => ([], ROpt None) end
    end.
  Fixpoint spec_aq (f : list T -> aqop T -> list T * vres T) (l : list T) (ops : list (aqop T)) : list (vres T) :=
    match ops with [] => [] | op :: ops => let (l', r) := f l op in r :: spec_aq f l' ops end.
  (** results of a queue / stack whose content is [l]; the values accepted by push and returned by pop, in order *)
  Definition accepted (ops : list (aqop T)) (rs : list (vres T)) : list T :=
    omap (fun p => match p with (APush x, RBool true) => Some x | _ => None end) (zip ops rs).
  Definition returned (rs : list (vres T)) : list T := omap (fun r => match r with ROpt (Some y) => Some y | _ => None end) rs.
End spec.

(** ** concurrent calls *)
Section conc.
  Context {T : Type}.
  (** every call that is pending in [ls] has returned in [ls'], nothing else happened *)
  Definition returned_calls (ls ls' : list (qthread T)) : Prop :=
    length ls' = length ls /\ forall i t, ls !! i = Some t ->
      exists t', ls' !! i = Some t' /\ (q_pc t = QIdle /\ t' = t \/ q_pc t <> QIdle /\ exists r, t' = finish t r).
  (** the state of the step machine is that of the sequential model (event trace and index buffer aside) *)
  Definition same_deq (s : qshared T dcnt) (d : deq T) : Prop :=
    c_n (q_c s) = v_n (d_v d) /\ c_begin (q_c s) = d_begin d /\ c_end (q_c s) = d_end d /\
    q_data s = v_data (d_v d) /\ q_occ s = v_occ (d_v d) /\ q_locks s = v_locks (d_v d).
End conc.
