(** Model of src/stdgpu/impl/mutex_detail.cuh on top of the bitset model (blocks of [bpb] bits). *)
From Verif Require Import Base Conc BitModel AlgoModel BitsetModel.

Section mutex.
  Context (bpb : Z).

  (** 59-76 createDeviceObject: a bitset of [size] bits *)
  Definition mutex_create (size : Z) : outcome bitset := bitset_create bpb size.

  (** 110-118 operator[] (index contract) followed by 31-38 reference::try_lock: !(bit_ref = true) *)
  Definition m_try_lock (b : bitset) (n : Z) : outcome (bitset * bool) :=
    require (0 <=? n) && (n <? bs_size b) in
    let! (b', old) := ref_assign bpb b n true in Ret (b', negb old).
  (** 40-46 reference::unlock: bit_ref = false *)
  Definition m_unlock (b : bitset) (n : Z) : outcome bitset :=
    require (0 <=? n) && (n <? bs_size b) in
    let! (b', _) := ref_assign bpb b n false in Ret b'.
  (** 48-53 reference::locked *)
  Definition m_locked (b : bitset) (n : Z) : outcome bool :=
    require (0 <=? n) && (n <? bs_size b) in ref_get bpb b n.
  (** 144-151 valid: count() == 0 *)
  Definition m_valid (b : bitset) : outcome bool := let! c := bitset_count bpb b in Ret (c =? 0).

  (** 156-182 detail::try_lock(i, lock1, lockn...), recursion over the pack.  The pack is never empty in the
      code; the empty list stands for the end of the recursion ("return -1"). *)
  Fixpoint detail_try_lock (i : Z) (b : bitset) (locks : list Z) : outcome (bitset * Z) :=
    match locks with
    | [] => Ret (b, -1)
    | n :: rest =>
      let! (b1, ok) := m_try_lock b n in
      if negb ok then Ret (b1, i)                                   (* return i *)
      else
        match rest with
        | [] => Ret (b1, -1)                                        (* 156-161: single lock, success *)
        | _ =>
          let! (b2, result) := detail_try_lock (i + 1) b1 rest in   (* try_lock(++i, lockn...) *)
          if result =? -1 then Ret (b2, result)
          else let! b3 := m_unlock b2 n in Ret (b3, result)         (* result != -1: lock1.unlock() *)
        end
    end.
  (** 186-191 try_lock(lock1, lock2, ...) *)
  Definition try_lock_all (b : bitset) (locks : list Z) : outcome (bitset * Z) := detail_try_lock 0 b locks.

  (** ** concurrent clients *)
  (** what one client asks for: try one lock, unlock (only performed if the client holds the lock: clients are
      well behaved), or try several locks at once *)
  Inductive mcmd := CTry (n : Z) | CUnlock (n : Z) | CTryAll (locks : list Z).
  (** what a client observes, in order *)
  Inductive mevent := ETry (n : Z) (ok : bool) | EUnlock (n : Z) | EStart (locks : list Z) | EEnd (locks : list Z) (result : Z).

  Inductive mpc :=
  | MIdle
  | MLocking (locks : list Z) (i : nat)                  (* about to try lock number i; locks 0..i-1 are held *)
  | MRollback (locks : list Z) (i : nat) (result : Z).   (* about to unlock lock number i-1, ..., 0 *)
  Record mthread := { m_prog : list mcmd; m_pc : mpc; m_log : list mevent }.

  (** successful try_locks of n minus unlocks of n *)
  Definition mbal1 (n : Z) (e : mevent) : Z :=
    match e with
    | ETry m true => if m =? n then 1 else 0
    | EUnlock m => if m =? n then -1 else 0
    | _ => 0
    end.
  Definition mbal (n : Z) (log : list mevent) : Z := sumZ (mbal1 n) log.

  (** one atomic access per step; MLocking/MRollback is the unrolled recursion of detail::try_lock *)
  Definition mutex_step (tid : nat) (b : bitset) (t : mthread) : option (bitset * mthread) :=
    match m_pc t with
    | MIdle =>
      match m_prog t with
      | [] => None
      | CTry n :: rest =>
        match m_try_lock b n with
        | Ret (b', ok) => Some (b', {| m_prog := rest; m_pc := MIdle; m_log := m_log t ++ [ETry n ok] |})
        | _ => None
        end
      | CUnlock n :: rest =>
        if 0 <? mbal n (m_log t) then
          match m_unlock b n with
          | Ret b' => Some (b', {| m_prog := rest; m_pc := MIdle; m_log := m_log t ++ [EUnlock n] |})
          | _ => None
          end
        else Some (b, {| m_prog := rest; m_pc := MIdle; m_log := m_log t |})
      | CTryAll locks :: rest =>
        Some (b, {| m_prog := rest; m_pc := MLocking locks 0; m_log := m_log t ++ [EStart locks] |})
      end
    | MLocking locks i =>
      match locks !! i with
      | None => Some (b, {| m_prog := m_prog t; m_pc := MIdle; m_log := m_log t ++ [EEnd locks (-1)] |})
      | Some n =>
        match m_try_lock b n with
        | Ret (b', true) =>
            Some (b', {| m_prog := m_prog t; m_pc := MLocking locks (S i); m_log := m_log t ++ [ETry n true] |})
        | Ret (b', false) =>
            Some (b', {| m_prog := m_prog t; m_pc := MRollback locks i (Z.of_nat i); m_log := m_log t ++ [ETry n false] |})
        | _ => None
        end
      end
    | MRollback locks i result =>
      match i with
      | O => Some (b, {| m_prog := m_prog t; m_pc := MIdle; m_log := m_log t ++ [EEnd locks result] |})
      | S j =>
        match locks !! j with
        | None => None
        | Some n =>
          match m_unlock b n with
          | Ret b' => Some (b', {| m_prog := m_prog t; m_pc := MRollback locks j result; m_log := m_log t ++ [EUnlock n] |})
          | _ => None
          end
        end
      end
    end.

  Definition mutex_init (b0 : bitset) (progs : list (list mcmd)) : bitset * list mthread :=
    (b0, (fun p => {| m_prog := p; m_pc := MIdle; m_log := [] |}) <$> progs).
End mutex.
