(** The part of push/pop that vector (vector_detail.cuh 181-299) and deque (deque_detail.cuh 202-446) share:
    a call first runs a few atomic accesses on the size/begin/end counters ([ctl], given per container) that
    either reject the call or claim a slot, then loops on that slot's lock until it has transferred its element.
    Every step is one shared access; try_lock/unlock and occupied/set/reset act on list-of-bool views of the
    lock and occupancy bitsets (justified by C12/C14/C15: each is one atomic access to one bit).
    Counters are unbounded integers; the code uses 32-bit int, which C76 (CounterModel.v) shows to make no difference. *)
From Verif Require Import Base Conc.

(** which call *)
Inductive qkind := KPushBack | KPopBack | KPushFront | KPopFront.
Definition is_push (k : qkind) : bool := match k with KPushBack | KPushFront => true | _ => false end.

(** result of one access to the counters *)
Inductive cres (C : Type) :=
| CGo (c : C) (n : nat)          (* continue with counter access number n *)
| CReject                        (* preemptive check: object full / empty *)
| COob (c : C)                   (* rejected after the counter was changed *)
| CClaim (c : C) (pos : nat).    (* slot pos claimed *)
Arguments CGo {C} c n.
Arguments CReject {C}.
Arguments COob {C} c.
Arguments CClaim {C} c pos.

Section slots.
  Context {T C : Type} (ctl : C -> qkind -> nat -> cres C).

  Inductive qop := QPush (k : qkind) (x : T) | QPop (k : qkind).   (* QPush with a push kind, QPop with a pop kind *)
  Definition kind_of (op : qop) : qkind := match op with QPush k _ => k | QPop k => k end.

  Inductive qres :=
  | Pushed (x : T)      (* returned true *)
  | Popped (y : T)      (* returned (y, true) *)
  | Refused             (* returned false: preemptive check *)
  | OutOfBounds.        (* returned false: after changing the size counter *)

  Inductive qpc :=
  | QIdle                                   (* not in a call *)
  | QCtl (n : nat)                          (* before counter access n *)
  | QTry (pos : nat)                        (* before try_lock *)
  | QCheck (pos : nat)                      (* lock held, before occupied(pos) *)
  | QConstruct (pos : nat)                  (* push: before construct(&_data[pos], element) *)
  | QSet (pos : nat)                        (* push: before _occupied.set(pos) *)
  | QReset (pos : nat)                      (* pop: before _occupied.reset(pos) *)
  | QRead (pos : nat)                       (* pop: before construct(&popped, _data[pos], true) *)
  | QDestroy (pos : nat) (y : T)            (* pop: before destroy(&_data[pos]) *)
  | QUnlock (pos : nat) (r : option qres).  (* before unlock; Some r: the loop ends and the call returns r *)

  Record qshared := { q_c : C; q_data : list (option T); q_occ : list bool; q_locks : list bool }.
  Record qthread := { q_prog : list qop; q_pc : qpc; q_log : list qres }.

  Definition goto (t : qthread) (pc : qpc) : qthread := {| q_prog := q_prog t; q_pc := pc; q_log := q_log t |}.
  Definition finish (t : qthread) (r : qres) : qthread :=
    {| q_prog := tail (q_prog t); q_pc := QIdle; q_log := q_log t ++ [r] |}.
  Definition with_c (s : qshared) (c : C) := {| q_c := c; q_data := q_data s; q_occ := q_occ s; q_locks := q_locks s |}.
  Definition with_lock (s : qshared) (p : nat) (b : bool) :=
    {| q_c := q_c s; q_data := q_data s; q_occ := q_occ s; q_locks := <[p := b]> (q_locks s) |}.
  Definition with_occ (s : qshared) (p : nat) (b : bool) :=
    {| q_c := q_c s; q_data := q_data s; q_occ := <[p := b]> (q_occ s); q_locks := q_locks s |}.
  Definition with_data (s : qshared) (p : nat) (d : option T) :=
    {| q_c := q_c s; q_data := <[p := d]> (q_data s); q_occ := q_occ s; q_locks := q_locks s |}.

  (** one step of one thread; None: nothing left to do, or an access outside the arrays / to a dead element *)
  Definition qstep (tid : nat) (s : qshared) (t : qthread) : option (qshared * qthread) :=
    match q_prog t with
    | [] => None
    | op :: _ =>
      match q_pc t with
      | QIdle => Some (s, goto t (QCtl 0))     (* call entered; a pop copies _data[0] here, see [init_read] *)
      | QCtl n =>
        match ctl (q_c s) (kind_of op) n with
        | CGo c n' => Some (with_c s c, goto t (QCtl n'))
        | CReject => Some (s, finish t Refused)
        | COob c => Some (with_c s c, finish t OutOfBounds)
        | CClaim c p => Some (with_c s c, goto t (QTry p))
        end
      | QTry p =>
        match q_locks s !! p with
        | None => None
        | Some true => Some (s, t)                          (* not acquired: loop *)
        | Some false => Some (with_lock s p true, goto t (QCheck p))
        end
      | QCheck p =>
        match (q_occ s !! p : option bool) with
        | None => None
        | Some b =>
          match op with
          | QPush _ _ => Some (s, goto t (if b then QUnlock p None else QConstruct p))
          | QPop _ => Some (s, goto t (if b then QReset p else QUnlock p None))
          end
        end
      | QConstruct p =>
        match op with
        | QPush _ x => Some (with_data s p (Some x), goto t (QSet p))
        | QPop _ => None
        end
      | QSet p =>
        match op with
        | QPush _ x => Some (with_occ s p true, goto t (QUnlock p (Some (Pushed x))))
        | QPop _ => None
        end
      | QReset p => Some (with_occ s p false, goto t (QRead p))
      | QRead p =>
        match q_data s !! p with
        | Some (Some y) => Some (s, goto t (QDestroy p y))
        | _ => None
        end
      | QDestroy p y => Some (with_data s p None, goto t (QUnlock p (Some (Popped y))))
      | QUnlock p None => Some (with_lock s p false, goto t (QTry p))
      | QUnlock p (Some r) => Some (with_lock s p false, finish t r)
      end
    end.

  (** a pop that is entering the call copies _data[0] into its result (vector 240-244, deque 260-264, 389-393)
      without holding a lock *)
  Definition init_read (t : qthread) : bool :=
    match q_prog t, q_pc t with QPop _ :: _, QIdle => true | _, _ => false end.
  (** slot whose element the next step of the thread constructs, reads or destroys under the lock *)
  Definition element_access (t : qthread) : option nat :=
    match q_prog t, q_pc t with
    | _ :: _, QConstruct p | _ :: _, QRead p | _ :: _, QDestroy p _ => Some p
    | _, _ => None
    end.
  (** ... and of those the writing ones *)
  Definition element_write (t : qthread) : option nat :=
    match q_prog t, q_pc t with
    | _ :: _, QConstruct p | _ :: _, QDestroy p _ => Some p
    | _, _ => None
    end.

  Definition quiescent (ls : list qthread) : Prop := forall t, t ∈ ls -> q_pc t = QIdle.
  Definition finished (ls : list qthread) : Prop := forall t, t ∈ ls -> q_prog t = [] /\ q_pc t = QIdle.

  (** ** lane-serialised execution (hip/execution.h 34-55): the lanes of a wavefront that reached
      warp_convergent_execute together run their loops one after the other, lowest lane first (C52).  [wave i] is
      the wavefront of thread i; the lanes of one wavefront are numbered by the thread number.  A thread inside
      its loop may only step if no lower lane of its wavefront is still inside its loop. *)
  Definition in_loop_body (t : qthread) : bool := match q_pc t with QIdle | QCtl _ => false | _ => true end.
  Definition lane_ready (wave : nat -> nat) (ls : list qthread) (i : nat) : Prop :=
    forall t, ls !! i = Some t -> in_loop_body t = true ->
    forall j tj, (j < i)%nat -> wave j = wave i -> ls !! j = Some tj -> in_loop_body tj = false.
  Inductive hip_step (wave : nat -> nat) : qshared * list qthread -> qshared * list qthread -> Prop :=
  | HipStep s ls i t s' t' : ls !! i = Some t -> lane_ready wave ls i -> qstep i s t = Some (s', t') ->
      hip_step wave (s, ls) (s', <[i := t']> ls).

  (** threads at the start of their programs *)
  Definition q_start (progs : list (list qop)) : list qthread := (fun p => {| q_prog := p; q_pc := QIdle; q_log := [] |}) <$> progs.
  Definition op_wf (op : qop) : Prop := match op with QPush k _ => is_push k = true | QPop k => is_push k = false end.
End slots.
Arguments qop : clear implicits.
Arguments qres : clear implicits.
Arguments qpc : clear implicits.
Arguments qshared : clear implicits.
Arguments qthread : clear implicits.
