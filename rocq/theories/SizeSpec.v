(** size() called while a kernel runs: one atomic load of the counter, clamped to [0, capacity] for vectors and deques.  What the bounds on it speak about. *)
From Verif Require Import Base Conc SlotModel SlotSpec RejectProofs.

(** what the returned calls of a kernel have added to the counter: successful pushes minus successful pops, and the rejected calls that changed it (C22) *)
Definition settled {T} (progs : list (list (qop T))) (ls : list (qthread T)) : Z :=
  Z.of_nat (length (ls ≫= fun t => pushed_by (q_log t))) - Z.of_nat (length (ls ≫= fun t => popped_by (q_log t))) + rejected true progs ls - rejected false progs ls.
(** the number of threads that are inside a push (pop) *)
Definition running {T} (push : bool) (ls : list (qthread T)) : Z :=
  sumZ (fun t : qthread T => match q_pc t, q_prog t with QIdle, _ => 0 | _, op :: _ => if Bool.eqb (is_push (kind_of op)) push then 1 else 0 | _, [] => 0 end) ls.
