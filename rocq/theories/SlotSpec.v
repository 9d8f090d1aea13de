(** Observations used to state the concurrent container properties. *)
From Verif Require Import Base Conc SlotModel.

Section spec.
  Context {T : Type}.
  (** values a thread's completed calls pushed / popped *)
  Definition pushed_by (log : list (qres T)) : list T := omap (fun r => match r with Pushed x => Some x | _ => None end) log.
  Definition popped_by (log : list (qres T)) : list T := omap (fun r => match r with Popped y => Some y | _ => None end) log.
  (** pushed value of a call that has stored its element but not yet returned *)
  Definition push_in_flight (t : qthread T) : list T :=
    match q_prog t, q_pc t with
    | QPush _ x :: _, QSet _ => [x]
    | _, QUnlock _ (Some (Pushed x)) => [x]
    | _, _ => []
    end.
  (** popped value of a call that has removed its element but not yet returned *)
  Definition pop_in_flight (t : qthread T) : list T :=
    match q_pc t with QUnlock _ (Some (Popped y)) => [y] | _ => [] end.
  (** elements stored in the slots *)
  Definition stored (data : list (option T)) : list T := omap id data.

  Definition all_pushed (ls : list (qthread T)) : list T := ls ≫= (fun t => pushed_by (q_log t) ++ push_in_flight t).
  Definition all_popped (ls : list (qthread T)) : list T := ls ≫= (fun t => popped_by (q_log t) ++ pop_in_flight t).
  (** no completed call was rejected after it had changed the size counter *)
  Definition no_oob (ls : list (qthread T)) : Prop := forall t, t ∈ ls -> OutOfBounds ∉ q_log t.
End spec.

