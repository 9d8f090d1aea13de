(** What the statements about the order of elements in concurrently used queues and stacks (C73, C74) speak about. *)
From Verif Require Import Base Conc SlotModel SlotSpec.

Section spec.
  Context {T : Type}.
  (** a call with the result it returned, and the thread that made it *)
  Notation qcall := (qop T * qres T)%type.
  Notation event := (nat * qcall)%type.

  (** queue::push is push_back of the underlying deque, queue::pop is pop_front; stack::pop is pop_back *)
  Definition queue_call (op : qop T) : Prop := match op with QPush KPushBack _ | QPop KPopFront => True | _ => False end.
  Definition back_call (op : qop T) : Prop := match op with QPush KPushBack _ | QPop KPopBack => True | _ => False end.
  Definition is_push_call (op : qop T) : Prop := match op with QPush _ _ => True | QPop _ => False end.
  Global Instance is_push_call_dec op : Decision (is_push_call op).
  Proof. destruct op; [left; exact I|right; auto]. Defined.
  (** number of push calls in the programs, and of threads whose program has a pop call *)
  Definition push_calls (progs : list (list (qop T))) : nat := length (filter is_push_call (concat progs)).
  Definition pops (prog : list (qop T)) : bool := existsb (fun op => match op with QPop _ => true | _ => false end) prog.
  Definition popping_threads (progs : list (list (qop T))) : nat := length (filter (fun prog => pops prog = true) progs).

  (** one call of a first-in first-out queue holding [M], oldest element first, run alone.  A pop may return false without effect although the queue is not
      empty, if it holds fewer than [n] elements, or [late] if a pop was rejected late before (OutOfBounds, see C22) *)
  Definition fifo_call (n : nat) (late : bool) (M : list T) (x : qcall) (late' : bool) (M' : list T) : Prop :=
    match x with
    | (QPush _ x, Pushed y) => y = x /\ M' = M ++ [x] /\ late' = late
    | (QPop _, Popped y) => M = y :: M' /\ late' = late
    | (QPop _, Refused) => (late = true \/ (length M < n)%nat) /\ M' = M /\ late' = late
    | (QPop _, OutOfBounds) => (late = true \/ (length M < n)%nat) /\ M' = M /\ late' = true
    | _ => False
    end.
  (** one call of a bounded stack holding [M], newest element last, run alone; [k] is 0 for an exact stack: a call is refused only if it is full / empty.
      Otherwise calls may also be refused when up to [k] elements are missing to being full / empty *)
  Definition lifo_call (cap k : nat) (M : list T) (x : qcall) (M' : list T) : Prop :=
    match x with
    | (QPush _ x, Pushed y) => y = x /\ M' = M ++ [x] /\ (length M < cap)%nat
    | (QPush _ x, Refused) | (QPush _ x, OutOfBounds) => (cap <= length M + k)%nat /\ M' = M
    | (QPop _, Popped y) => M = M' ++ [y]
    | (QPop _, Refused) | (QPop _, OutOfBounds) => (length M <= k)%nat /\ M' = M
    | _ => False
    end.
  (** one call of a bounded first-in first-out queue holding [M], oldest element first, run alone *)
  Definition bounded_call (cap : nat) (M : list T) (x : qcall) (M' : list T) : Prop :=
    match x with
    | (QPush _ x, Pushed y) => y = x /\ M' = M ++ [x] /\ (length M < cap)%nat
    | (QPush _ x, Refused) => length M = cap /\ M' = M
    | (QPop _, Popped y) => M = y :: M'
    | (QPop _, Refused) => M = [] /\ M' = M
    | _ => False
    end.
  (** a sequence of calls, one after the other *)
  Fixpoint bounded (cap : nat) (M : list T) (h : list event) (M' : list T) : Prop :=
    match h with
    | [] => M' = M
    | (_, x) :: h => exists M1, bounded_call cap M x M1 /\ bounded cap M1 h M'
    end.
  Fixpoint fifo (n : nat) (late : bool) (M : list T) (h : list event) (late' : bool) (M' : list T) : Prop :=
    match h with
    | [] => late' = late /\ M' = M
    | (_, x) :: h => exists late1 M1, fifo_call n late M x late1 M1 /\ fifo n late1 M1 h late' M'
    end.
  Fixpoint lifo (cap k : nat) (M : list T) (h : list event) (M' : list T) : Prop :=
    match h with
    | [] => M' = M
    | (_, x) :: h => exists M1, lifo_call cap k M x M1 /\ lifo cap k M1 h M'
    end.

  (** the calls of thread [i] in the sequence *)
  Definition calls_by (i : nat) (h : list event) : list qcall := (filter (fun x : event => x.1 = i) h).*2.
  (** the sequence [h] has, thread by thread, exactly the calls that have returned, with their results, and maybe the one that is running *)
  Definition accounts (progs : list (list (qop T))) (ls : list (qthread T)) (h : list event) : Prop :=
    (forall x, x ∈ h -> (x.1 < length progs)%nat) /\
    forall i t prog, ls !! i = Some t -> progs !! i = Some prog ->
      calls_by i h = zip prog (q_log t) \/
      exists op rest r, q_pc t <> QIdle /\ q_prog t = op :: rest /\ calls_by i h = zip prog (q_log t) ++ [(op, r)].
  (** the runs of a kernel, with all states they pass *)
  Inductive passes {C : Type} (step : nat -> qshared T C -> qthread T -> option (qshared T C * qthread T)) (start : qshared T C * list (qthread T)) :
      list (qshared T C * list (qthread T)) -> qshared T C * list (qthread T) -> Prop :=
  | pass_start : passes step start [] start
  | pass_step past c c' : passes step start past c -> Conc.cstep step c c' -> passes step start (c :: past) c'.
  (** [h] is an order of the calls of the run that respects their order in time: at every earlier state of the run, the calls that had returned by then come first,
      and those that had not begun come later *)
  Definition in_order {C : Type} (progs : list (list (qop T))) (past : list (qshared T C * list (qthread T))) (ls : list (qthread T)) (h : list event) : Prop :=
    accounts progs ls h /\ forall c1, c1 ∈ past -> exists ha hb, h = ha ++ hb /\ accounts progs c1.2 ha.
End spec.
