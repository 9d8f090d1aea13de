(** Property theorems C15-C17: mutex.cuh *)
From Verif Require Import Base Conc BitModel BitSpec BitsetModel MutexModel MutexSpec MutexProofs.

(** C15: any number of well-behaved clients, any programs mixing try_lock, unlock and multi-lock try_lock, any
    interleaving of the individual atomic accesses: [mbal n log] counts the successful try_locks of lock n minus
    the unlocks of n a client has performed.  It is 0 or 1, it is positive for at most one client, and lock n
    reads as locked exactly when some client holds it (so holding other locks is irrelevant). *)
Theorem C15_mutual_exclusion : forall bpb, is_pow2 64 bpb -> bpb <= 64 ->
  forall size (progs : list (list mcmd)) b0 b ls, 0 <= size < 2 ^ 63 -> mutex_create bpb size = Ret b0 ->
  reach (mutex_step bpb) (mutex_init b0 progs) (b, ls) ->
  (forall t n, t ∈ ls -> 0 <= mbal n (m_log t) <= 1) /\
  (forall n i j ti tj, ls !! i = Some ti -> ls !! j = Some tj ->
      0 < mbal n (m_log ti) -> 0 < mbal n (m_log tj) -> i = j) /\
  (forall n, 0 <= n < size -> exists v, m_locked bpb b n = Ret v /\
      (v = true <-> exists t, t ∈ ls /\ 0 < mbal n (m_log t))).
Proof. exact mutual_exclusion. Qed.
Print Assumptions C15_mutual_exclusion.
(** two clients compete for lock 9 (second block), one also holds lock 8 *)
Example C15_ex : exists b0 b ls, mutex_create 8 12 = Ret b0 /\
  reach (mutex_step 8) (mutex_init b0 [[CTry 9; CUnlock 9]; [CTryAll [8; 9]]]) (b, ls) /\
  map m_log ls = [[ETry 9 true]; [EStart [8; 9]; ETry 8 true; ETry 9 false; EUnlock 8; EEnd [8; 9] 1]].
Proof.
  eexists _, _, _. split; [reflexivity|]. split.
  - apply (run_reach _ [0; 1; 1; 1; 1; 1]%nat). vm_compute. reflexivity.
  - reflexivity.
Qed.

(** C16: from any state of the lock array (reached by any history of bit operations), for any list of locks:
    either -1, all locks were free and distinct and exactly they are now additionally held; or the number of the
    first lock that was held already (or occurs earlier in the list), and the lock state is unchanged. *)
Theorem C16_try_lock_all_or_nothing : forall bpb, is_pow2 64 bpb -> bpb <= 64 ->
  forall size (ops : list bs_op) b0 b rs (ns : list Z), 0 <= size < 2 ^ 31 ->
  bitset_create bpb size = Ret b0 -> bitset_run bpb b0 ops = Ret (b, rs) ->
  (forall n, n ∈ ns -> 0 <= n < size) ->
  let L := lock_state bpb (bs_blocks b) size in
  exists b' r, try_lock_all bpb b ns = Ret (b', r) /\
  let L' := lock_state bpb (bs_blocks b') size in
  ((r = -1 /\ NoDup ns /\ (forall n, n ∈ ns -> L !! Z.to_nat n = Some false) /\ L' = hold_all L ns) \/
   (exists k, r = Z.of_nat k /\ blocked_at L ns k /\ (forall j, (j < k)%nat -> ~ blocked_at L ns j) /\ L' = L)).
Proof. exact try_lock_all_spec. Qed.
Print Assumptions C16_try_lock_all_or_nothing.
Example C16_ex : exists b0 b b1 b2 rs, bitset_create 8 20 = Ret b0 /\ bitset_run 8 b0 [BSet 17 true] = Ret (b, rs) /\
  try_lock_all 8 b [3; 9; 17; 4] = Ret (b1, 2) /\ b1 = b /\ try_lock_all 8 b [3; 9; 3] = Ret (b2, 2) /\ b2 = b /\
  try_lock_all 8 b [3; 9; 4] = Ret ({| bs_blocks := [24; 2; 2]; bs_size := 20 |}, -1).
Proof.
  eexists _, _, _, _, _. split; [vm_compute; reflexivity|]. split; [vm_compute; reflexivity|].
  split; [vm_compute; reflexivity|]. split; [reflexivity|]. split; [vm_compute; reflexivity|].
  split; [reflexivity|]. vm_compute. reflexivity.
Qed.
(** ... and under every interleaving with other clients: a completed call that returned -1 leaves the client
    holding each given lock once more than before, a call that returned i failed at the i-th given lock and
    has given back everything it took. *)
Theorem C16_concurrent : forall bpb, is_pow2 64 bpb -> bpb <= 64 ->
  forall size (progs : list (list mcmd)) b0 b ls t l1 ns l2 r l3, 0 <= size < 2 ^ 63 -> mutex_create bpb size = Ret b0 ->
  reach (mutex_step bpb) (mutex_init b0 progs) (b, ls) -> t ∈ ls ->
  m_log t = l1 ++ [EStart ns] ++ l2 ++ [EEnd ns r] ++ l3 -> no_calls l2 ->
  (r = -1 /\ forall n, mbal n (l1 ++ [EStart ns] ++ l2) = mbal n l1 + Z.of_nat (length (filter (fun m => m = n) ns))) \/
  (exists k n, r = Z.of_nat k /\ ns !! k = Some n /\
     l2 = ((fun m => ETry m true) <$> take k ns) ++ [ETry n false] ++ (EUnlock <$> reverse (take k ns)) /\
     forall m, mbal m (l1 ++ [EStart ns] ++ l2) = mbal m l1).
Proof. exact try_all_concurrent. Qed.
Print Assumptions C16_concurrent.

(** C17 *)
Theorem C17_valid_iff_all_free : forall bpb, is_pow2 64 bpb -> bpb <= 64 ->
  forall size (ops : list bs_op) b0 b rs, 0 <= size < 2 ^ 31 ->
  bitset_create bpb size = Ret b0 -> bitset_run bpb b0 ops = Ret (b, rs) ->
  exists v, m_valid bpb b = Ret v /\ (v = true <-> forall n, 0 <= n < size -> m_locked bpb b n = Ret false).
Proof. exact valid_spec. Qed.
Print Assumptions C17_valid_iff_all_free.
Theorem C17_lock_unlock_restores : forall bpb, is_pow2 64 bpb -> bpb <= 64 ->
  forall size (ops : list bs_op) b0 b rs n, 0 <= size < 2 ^ 31 ->
  bitset_create bpb size = Ret b0 -> bitset_run bpb b0 ops = Ret (b, rs) -> 0 <= n < size ->
  m_locked bpb b n = Ret false ->
  exists b1 b2, m_try_lock bpb b n = Ret (b1, true) /\ m_unlock bpb b1 n = Ret b2 /\
    lock_state bpb (bs_blocks b2) size = lock_state bpb (bs_blocks b) size /\ m_valid bpb b2 = m_valid bpb b /\
    m_locked bpb b1 n = Ret true /\ m_valid bpb b1 = Ret false.
Proof. exact lock_unlock_restores. Qed.
Print Assumptions C17_lock_unlock_restores.
(** in a concurrent history valid() holds exactly when no client holds any lock *)
Theorem C17_valid_concurrent : forall bpb, is_pow2 64 bpb -> bpb <= 64 ->
  forall size (progs : list (list mcmd)) b0 b ls, 0 <= size < 2 ^ 31 -> mutex_create bpb size = Ret b0 ->
  reach (mutex_step bpb) (mutex_init b0 progs) (b, ls) ->
  exists v, m_valid bpb b = Ret v /\ (v = true <-> forall t n, t ∈ ls -> mbal n (m_log t) = 0).
Proof. exact valid_concurrent. Qed.
Print Assumptions C17_valid_concurrent.
