(** Concurrent model of insert, erase and find/contains/count of src/stdgpu/impl/unordered_base_detail.cuh: any number of threads, every
    step one access to shared memory (sequentially consistent interleaving, see C58 for the fences this needs).  The bitset _occupied,
    the mutex_array _locks and atomic _occupied_count are the list-of-bool / integer views of C12, C15, C08 (the counter is unbounded
    here, see C76); _excess_list_positions is the concurrent vector of SlotModel.v / VectorModel.v, run step by step.  Contract checks are not
    evaluated (release build); an access outside an array or to a dead value leaves the thread without a step.
    [bc]: _bucket_count, [E]: capacity of _excess_list_positions. *)
From Verif Require Import Base Conc SlotModel VectorModel UnorderedModel.

Section uconc.
  Context {K V : Type} (kf : V -> K) (hash : K -> Z) (keq : K -> K -> bool) (bc E : nat).

  Inductive cop := CInsert (v : V) | CErase (k : K) | CFind (k : K).        (* CFind: find, contains and count *)
  Inductive cret :=
  | RInserted (p : nat)          (* insert returned (iterator to entry p, true) *)
  | RNotInserted                 (* insert returned (end(), false) *)
  | RErased (b : bool)           (* erase returned 1 / 0 *)
  | RFound (o : option nat).     (* find returned an iterator to entry p / end() *)

  (** which call of find() inside the operations *)
  Inductive fctx :=
  | FUser                        (* the user's *)
  | FIns1                        (* 719 *)
  | FInsB                        (* 731, bucket lock held *)
  | FInsL (e checked : nat)      (* 765, lock of list end e held, checked_linked_list_end known *)
  | FEr1                         (* 818 *)
  | FErB (p : nat)               (* 834, lock of p held *)
  | FErL (p q : nat).            (* 868, locks of p and its predecessor q held *)
  Inductive ectx := EIns1 | EIns2 (e : nat).                               (* find_linked_list_end: 757, 764 *)
  Inductive pctx := PEr1 (p : nat) | PEr2 (p q : nat) (same : bool).       (* find_previous_entry_position: 861, 869 *)

  Inductive upc :=
  | UIdle
  | UFullCheck | UEmptyCheck                                               (* 980, 981 *)
  | FOcc (c : fctx) (i : nat) | FVal (c : fctx) (i : nat)                  (* 661 / 673: occupied(i), then the key of _values[i] *)
  | FOff (c : fctx) (i : nat) | FAdd (c : fctx) (i : nat)                  (* 669, 671: the two reads of _offsets[i] *)
  | EOff (c : ectx) (i : nat) | EAdd (c : ectx) (i : nat)                  (* 922, 924 *)
  | POff (c : pctx) (i prev : nat) | PAdd (c : pctx) (i prev : nat)        (* 940, 943 *)
  | IOcc                                                                   (* 724 *)
  | ILockB | IOccB | IConB | ICntB | ISetB | IUnlB (r : option nat)        (* 726, 731, 733, 738, 739, 751 *)
  | ILockL (e : nat) | IPop (e : nat) (q : qthread Z)                      (* 759, 767 *)
  | IConL (e p : nat) | IOffL (e p : nat) | ICntL (e p : nat) | ISetL (e p : nat) | ILinkL (e p : nat)   (* 777, 778, 781, 782, 786 *)
  | IUnlL (e : nat) (r : option nat)                                       (* 799 *)
  | XLockB (p : nat) | XResetB (p : nat) | XCntB (p : nat) | XDesB (p : nat) | XUnlB (p : nat) (ok : bool)   (* 829, 838, 839, 842, 855 *)
  | XLock1 (p q : nat) | XLock2 (p q : nat) | XBack (p : nat)              (* 863 *)
  | XTest (p q : nat) | XAdd1 (p q : nat) | XAdd2 (p q : nat) (o : Z) | XPut (p q : nat) (o : Z)             (* 873-879 *)
  | XReset (p q : nat) | XCnt (p q : nat) | XDes (p q : nat) | XPush (p q : nat) (t : qthread Z)             (* 883, 884, 887, 891 *)
  | XUnl1 (p q : nat) (ok : bool) | XUnl2 (q : nat) (ok : bool).           (* 902, 903 *)

  Record cshared := { c_values : list (option V); c_off : list Z; c_occ : list bool; c_locks : list bool; c_count : Z; c_ex : qshared Z Z }.
  Record cthread := { c_prog : list cop; c_pc : upc; c_log : list (cop * cret) }.

  Definition cgo (t : cthread) (pc : upc) : cthread := {| c_prog := c_prog t; c_pc := pc; c_log := c_log t |}.
  Definition cfinish (t : cthread) (op : cop) (r : cret) : cthread := {| c_prog := tail (c_prog t); c_pc := UIdle; c_log := c_log t ++ [(op, r)] |}.
  Definition put_value (s : cshared) (p : nat) (o : option V) := {| c_values := <[p := o]> (c_values s); c_off := c_off s; c_occ := c_occ s; c_locks := c_locks s; c_count := c_count s; c_ex := c_ex s |}.
  Definition put_off (s : cshared) (p : nat) (o : Z) := {| c_values := c_values s; c_off := <[p := o]> (c_off s); c_occ := c_occ s; c_locks := c_locks s; c_count := c_count s; c_ex := c_ex s |}.
  Definition put_occ (s : cshared) (p : nat) (b : bool) := {| c_values := c_values s; c_off := c_off s; c_occ := <[p := b]> (c_occ s); c_locks := c_locks s; c_count := c_count s; c_ex := c_ex s |}.
  Definition put_lock (s : cshared) (p : nat) (b : bool) := {| c_values := c_values s; c_off := c_off s; c_occ := c_occ s; c_locks := <[p := b]> (c_locks s); c_count := c_count s; c_ex := c_ex s |}.
  Definition put_count (s : cshared) (n : Z) := {| c_values := c_values s; c_off := c_off s; c_occ := c_occ s; c_locks := c_locks s; c_count := n; c_ex := c_ex s |}.
  Definition put_ex (s : cshared) (x : qshared Z Z) := {| c_values := c_values s; c_off := c_off s; c_occ := c_occ s; c_locks := c_locks s; c_count := c_count s; c_ex := x |}.

  (** 554-564 bucket: no shared access *)
  Definition bucket_of (k : K) : option nat := match fibonacci_hashing (hash k) (Z.of_nat bc) with Ret r => Some (Z.to_nat r) | _ => None end.
  Definition next_entry (i : nat) (o : Z) : option nat := if 0 <=? Z.of_nat i + o then Some (Z.to_nat (Z.of_nat i + o)) else None.
  Definition op_key (op : cop) : K := match op with CInsert v => kf v | CErase k => k | CFind k => k end.

  (** start of the vector call: pop_back() / push_back(p) *)
  Definition pop_call : qthread Z := {| q_prog := [QPop KPopBack]; q_pc := QIdle; q_log := [] |}.
  Definition push_call (p : nat) : qthread Z := {| q_prog := [QPush KPushBack (Z.of_nat p)]; q_pc := QIdle; q_log := [] |}.

  (** find() inside an operation returned r (b: bucket of the key): the next access *)
  Definition after_find (t : cthread) (op : cop) (b : nat) (c : fctx) (r : option nat) : cthread :=
    match c with
    | FUser => cfinish t op (RFound r)
    | FIns1 => match r with Some _ => cfinish t op RNotInserted | None => cgo t IOcc end
    | FInsB => match r with Some _ => cgo t (IUnlB None) | None => cgo t IOccB end
    | FInsL e checked => match r with None => if bool_decide (e = checked) then cgo t (IPop e pop_call) else cgo t (IUnlL e None) | Some _ => cgo t (IUnlL e None) end
    | FEr1 => match r with None => cfinish t op (RErased false) | Some p => if bool_decide (p = b) then cgo t (XLockB p) else cgo t (POff (PEr1 p) b b) end
    | FErB p => if bool_decide (r = Some p) then cgo t (XResetB p) else cgo t (XUnlB p false)
    | FErL p q => cgo t (POff (PEr2 p q (bool_decide (r = Some p))) b b)
    end.
  Definition after_end (t : cthread) (b : nat) (c : ectx) (e : nat) : cthread :=
    match c with EIns1 => cgo t (ILockL e) | EIns2 e0 => cgo t (FOcc (FInsL e0 e) b) end.
  Definition after_prev (t : cthread) (c : pctx) (prev : nat) : cthread :=
    match c with
    | PEr1 p => cgo t (XLock1 p prev)
    | PEr2 p q same => if same && bool_decide (q = prev) then cgo t (XTest p q) else cgo t (XUnl1 p q false)
    end.
  Definition entry_of (c : pctx) : nat := match c with PEr1 p => p | PEr2 p _ _ => p end.
  (** the loop of insert (974-990) / erase (1027-1039) after a failed attempt *)
  Definition again (t : cthread) (b : nat) (op : cop) : cthread := match op with CInsert _ => cgo t UFullCheck | _ => cgo t (FOcc FEr1 b) end.

  Definition ustep (tid : nat) (s : cshared) (t : cthread) : option (cshared * cthread) :=
    match c_prog t with
    | [] => None
    | op :: _ =>
      match bucket_of (op_key op) with
      | None => None
      | Some b =>
        match c_pc t with
        | UIdle => Some (s, cgo t (match op with CInsert _ => UFullCheck | CErase _ => FOcc FEr1 b | CFind _ => FOcc FUser b end))
        | UFullCheck => Some (s, if c_count s =? Z.of_nat (length (c_occ s)) then cfinish t op RNotInserted else cgo t UEmptyCheck)
        | UEmptyCheck => Some (s, if clamp_size (Z.of_nat E) (q_c (c_ex s)) =? 0 then cfinish t op RNotInserted else cgo t (FOcc FIns1 b))
        | FOcc c i => match (c_occ s !! i : option bool) with Some o => Some (s, cgo t (if o then FVal c i else FOff c i)) | None => None end
        | FVal c i =>
          match c_values s !! i with
          | Some (Some v) => Some (s, if keq (kf v) (op_key op) then after_find t op b c (Some i) else cgo t (FOff c i))
          | _ => None
          end
        | FOff c i => match c_off s !! i with Some o => Some (s, if o =? 0 then after_find t op b c None else cgo t (FAdd c i)) | None => None end
        | FAdd c i => match c_off s !! i with Some o => match next_entry i o with Some j => Some (s, cgo t (FOcc c j)) | None => None end | None => None end
        | EOff c i => match c_off s !! i with Some o => Some (s, if o =? 0 then after_end t b c i else cgo t (EAdd c i)) | None => None end
        | EAdd c i => match c_off s !! i with Some o => match next_entry i o with Some j => Some (s, cgo t (EOff c j)) | None => None end | None => None end
        | POff c i prev => match c_off s !! i with Some o => Some (s, if o =? 0 then after_prev t c prev else cgo t (PAdd c i prev)) | None => None end
        | PAdd c i prev =>
          match c_off s !! i with
          | Some o => match next_entry i o with Some j => Some (s, if bool_decide (j = entry_of c) then after_prev t c prev else cgo t (POff c j j)) | None => None end
          | None => None
          end
        | IOcc => match (c_occ s !! b : option bool) with Some o => Some (s, cgo t (if o then EOff EIns1 b else ILockB)) | None => None end
        | ILockB =>
          match (c_locks s !! b : option bool) with
          | Some true => Some (s, again t b op)
          | Some false => Some (put_lock s b true, cgo t (FOcc FInsB b))
          | None => None
          end
        | IOccB => match (c_occ s !! b : option bool) with Some o => Some (s, cgo t (if o then IUnlB None else IConB)) | None => None end
        | IConB => match op with CInsert v => match c_values s !! b with Some _ => Some (put_value s b (Some v), cgo t ICntB) | None => None end | _ => None end
        | ICntB => Some (put_count s (c_count s + 1), cgo t ISetB)
        | ISetB => match c_occ s !! b with Some _ => Some (put_occ s b true, cgo t (IUnlB (Some b))) | None => None end
        | IUnlB r =>
          match c_locks s !! b with
          | Some _ => Some (put_lock s b false, match r with Some p => cfinish t op (RInserted p) | None => again t b op end)
          | None => None
          end
        | ILockL e =>
          match (c_locks s !! e : option bool) with
          | Some true => Some (s, again t b op)
          | Some false => Some (put_lock s e true, cgo t (EOff (EIns2 e) b))
          | None => None
          end
        | IPop e q =>
          match qstep (vctl E) tid (c_ex s) q with
          | Some (x, q') =>
            match q_prog q', last (q_log q') with
            | [], Some (Popped y) => if 0 <=? y then Some (put_ex s x, cgo t (IConL e (Z.to_nat y))) else None
            | [], _ => Some (put_ex s x, cgo t (IUnlL e None))
            | _, _ => Some (put_ex s x, cgo t (IPop e q'))
            end
          | None => None
          end
        | IConL e p => match op with CInsert v => match c_values s !! p with Some _ => Some (put_value s p (Some v), cgo t (IOffL e p)) | None => None end | _ => None end
        | IOffL e p => match c_off s !! p with Some _ => Some (put_off s p 0, cgo t (ICntL e p)) | None => None end
        | ICntL e p => Some (put_count s (c_count s + 1), cgo t (ISetL e p))
        | ISetL e p => match c_occ s !! p with Some _ => Some (put_occ s p true, cgo t (ILinkL e p)) | None => None end
        | ILinkL e p => match c_off s !! e with Some _ => Some (put_off s e (Z.of_nat p - Z.of_nat e), cgo t (IUnlL e (Some p))) | None => None end
        | IUnlL e r =>
          match c_locks s !! e with
          | Some _ => Some (put_lock s e false, match r with Some p => cfinish t op (RInserted p) | None => again t b op end)
          | None => None
          end
        | XLockB p =>
          match (c_locks s !! p : option bool) with
          | Some true => Some (s, again t b op)
          | Some false => Some (put_lock s p true, cgo t (FOcc (FErB p) b))
          | None => None
          end
        | XResetB p => match c_occ s !! p with Some _ => Some (put_occ s p false, cgo t (XCntB p)) | None => None end
        | XCntB p => Some (put_count s (c_count s - 1), cgo t (XDesB p))
        | XDesB p => match c_values s !! p with Some (Some _) => Some (put_value s p None, cgo t (XUnlB p true)) | _ => None end
        | XUnlB p ok =>
          match c_locks s !! p with
          | Some _ => Some (put_lock s p false, if ok then cfinish t op (RErased true) else again t b op)
          | None => None
          end
        | XLock1 p q =>
          match (c_locks s !! p : option bool) with
          | Some true => Some (s, again t b op)
          | Some false => Some (put_lock s p true, cgo t (XLock2 p q))
          | None => None
          end
        | XLock2 p q =>
          match (c_locks s !! q : option bool) with
          | Some true => Some (s, cgo t (XBack p))
          | Some false => Some (put_lock s q true, cgo t (FOcc (FErL p q) b))
          | None => None
          end
        | XBack p => match c_locks s !! p with Some _ => Some (put_lock s p false, again t b op) | None => None end
        | XTest p q => match c_off s !! p with Some o => Some (s, cgo t (if o =? 0 then XPut p q 0 else XAdd1 p q)) | None => None end
        | XAdd1 p q => match c_off s !! p with Some o => Some (s, cgo t (XAdd2 p q o)) | None => None end
        | XAdd2 p q o => match c_off s !! q with Some o' => Some (s, cgo t (XPut p q (o' + o))) | None => None end
        | XPut p q o => match c_off s !! q with Some _ => Some (put_off s q o, cgo t (XReset p q)) | None => None end
        | XReset p q => match c_occ s !! p with Some _ => Some (put_occ s p false, cgo t (XCnt p q)) | None => None end
        | XCnt p q => Some (put_count s (c_count s - 1), cgo t (XDes p q))
        | XDes p q => match c_values s !! p with Some (Some _) => Some (put_value s p None, cgo t (XPush p q (push_call p))) | _ => None end
        | XPush p q x =>
          match qstep (vctl E) tid (c_ex s) x with
          | Some (y, x') => Some (put_ex s y, cgo t (match q_prog x' with [] => XUnl1 p q true | _ => XPush p q x' end))
          | None => None
          end
        | XUnl1 p q ok => match c_locks s !! p with Some _ => Some (put_lock s p false, cgo t (XUnl2 q ok)) | None => None end
        | XUnl2 q ok =>
          match c_locks s !! q with
          | Some _ => Some (put_lock s q false, if ok then cfinish t op (RErased true) else again t b op)
          | None => None
          end
        end
      end
    end.

  Definition c_start (progs : list (list cop)) : list cthread := (fun p => {| c_prog := p; c_pc := UIdle; c_log := [] |}) <$> progs.
  (** the state a sequence of calls by one caller left behind, and a state without running calls as such a state *)
  Definition shared_of (u : utab V) : cshared := {| c_values := u_values u; c_off := u_off u; c_occ := u_occ u; c_locks := u_locks u; c_count := u_count u;
    c_ex := {| q_c := v_n (u_excess u); q_data := v_data (u_excess u); q_occ := v_occ (u_excess u); q_locks := v_locks (u_excess u) |} |}.
  Definition utab_of (indices : list Z) (s : cshared) : utab V := {| u_bc := Z.of_nat bc; u_values := c_values s; u_off := c_off s; u_occ := c_occ s; u_locks := c_locks s;
    u_count := c_count s; u_excess := as_vec (c_ex s); u_indices := indices; u_ev := [] |}.
  Definition c_quiescent (ls : list cthread) : Prop := forall t, t ∈ ls -> c_pc t = UIdle.
End uconc.
Arguments cop : clear implicits.
Arguments cshared : clear implicits.
Arguments cthread : clear implicits.
