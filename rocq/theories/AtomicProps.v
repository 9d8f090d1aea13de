(** Property theorems C08-C11, C58: atomic.cuh *)
From Verif Require Import Base Conc AtomicModel AtomicSpec AtomicProofs.

(** C08: ring counters. [new_value w (AIncMod m)] is what fetch_inc_mod(m) stores; the returned value is
    the one found (C09). *)
Theorem C08_fetch_inc_mod : forall w m v, 0 < w -> 0 < m < 2 ^ w -> 0 <= v < m ->
  new_value w (AIncMod m) v = (v + 1) mod m.
Proof. exact inc_mod_spec. Qed.
Print Assumptions C08_fetch_inc_mod.
Theorem C08_fetch_dec_mod : forall w m v, 0 < w -> 0 < m < 2 ^ w -> 0 <= v < m ->
  new_value w (ADecMod m) v = (v - 1) mod m.
Proof. exact dec_mod_spec. Qed.
Print Assumptions C08_fetch_dec_mod.
(** any sequence of increments (true) and decrements (false): net displacement modulo m, always in [0,m) *)
Theorem C08_ring_sequence : forall w m (ops : list bool), 0 < w -> 0 < m < 2 ^ w -> forall v, 0 <= v < m ->
  let final := fold_left (fun v (up : bool) => new_value w (if up then AIncMod m else ADecMod m) v) ops v in
  final = (v + sumZ (fun up : bool => if up then 1 else -1) ops) mod m /\ 0 <= final < m.
Proof. exact ring_run_spec. Qed.
Print Assumptions C08_ring_sequence.
Example C08_ex : fold_left (fun v (up : bool) => new_value 32 (if up then AIncMod 5 else ADecMod 5) v)
   [false; false; true; false] 1 = 4.
Proof. reflexivity. Qed.

(** What each operation stores, for all widths, signed and unsigned, and all values ([stores] in AtomicSpec.v). *)
Theorem C09_operation_stores : forall signed w op old, 0 < w -> in_range signed w old -> args_in_range signed w op ->
  stores signed w op old (cell_value signed w op old).
Proof. exact operation_stores. Qed.
Print Assumptions C09_operation_stores.
Example C09_operation_stores_ex : cell_value true 8 (AAdd 100) 100 = -56 /\ cell_value false 8 (ASub 3) 1 = 254 /\
  cell_value true 8 (AMin (-3)) 2 = -3 /\ cell_value false 8 (AMin 253) 2 = 2.
Proof. repeat split; reflexivity. Qed.
(** C09 on the GPU backends: for all thread counts and programs, at every reachable moment there is a
    sequential history that explains all returned values and the stored value, in program order per thread. *)
Theorem C09_gpu_linearizable : forall signed w v0 (progs : list (list aop)) s ls,
  reach (astep (cell_value signed w) kind_gpu) (a_init v0 progs) (s, ls) ->
  exists h, legal (cell_value signed w) v0 h (a_val s) /\
      (forall i l, ls !! i = Some l -> a_log l = by_thread i h) /\
      (forall e, e ∈ h -> (e.1.1 < length progs)%nat) /\
      (all_done ls -> forall i p, progs !! i = Some p -> fst <$> by_thread i h = p).
Proof. exact linearizable_gpu. Qed.
Print Assumptions C09_gpu_linearizable.
(** C09 on OpenMP, for programs that on one cell use either only `critical`-protected operations or no
    `critical`-protected read-modify-write (the missing case is refuted below). *)
Theorem C09_openmp_linearizable_partial : forall signed w v0 (progs : list (list aop)) s ls,
  (forall p op, p ∈ progs -> op ∈ p -> kind_openmp op <> HwAtomic) \/
  (forall p op, p ∈ progs -> op ∈ p -> kind_openmp op <> CritRMW) ->
  reach (astep (cell_value signed w) kind_openmp) (a_init v0 progs) (s, ls) ->
  exists h, legal (cell_value signed w) v0 h (a_val s) /\
      (forall i l, ls !! i = Some l -> a_log l = by_thread i h) /\
      (forall e, e ∈ h -> (e.1.1 < length progs)%nat) /\
      (all_done ls -> forall i p, progs !! i = Some p -> fst <$> by_thread i h = p).
Proof. exact linearizable_openmp. Qed.
Print Assumptions C09_openmp_linearizable_partial.
(** The order respects time: what has been returned at a moment [(s, ls)] stays where it is in the history, and whatever is returned later comes after
    it.  So a call that returned before another one was started precedes it. *)
Theorem C09_gpu_order_in_time : forall signed w v0 (progs : list (list aop)) s ls s' ls',
  reach (astep (cell_value signed w) kind_gpu) (a_init v0 progs) (s, ls) -> reach (astep (cell_value signed w) kind_gpu) (s, ls) (s', ls') ->
  exists h h', legal (cell_value signed w) v0 h (a_val s) /\ legal (cell_value signed w) v0 (h ++ h') (a_val s') /\
      (forall i l, ls !! i = Some l -> a_log l = by_thread i h) /\ (forall i l, ls' !! i = Some l -> a_log l = by_thread i (h ++ h')).
Proof. intros *. apply linearizable_in_time; [intros; apply (kind_gpu_load signed w); assumption|apply gpu_no_mix]. Qed.
Theorem C09_openmp_order_in_time_partial : forall signed w v0 (progs : list (list aop)) s ls s' ls',
  (forall p op, p ∈ progs -> op ∈ p -> kind_openmp op <> HwAtomic) \/
  (forall p op, p ∈ progs -> op ∈ p -> kind_openmp op <> CritRMW) ->
  reach (astep (cell_value signed w) kind_openmp) (a_init v0 progs) (s, ls) -> reach (astep (cell_value signed w) kind_openmp) (s, ls) (s', ls') ->
  exists h h', legal (cell_value signed w) v0 h (a_val s) /\ legal (cell_value signed w) v0 (h ++ h') (a_val s') /\
      (forall i l, ls !! i = Some l -> a_log l = by_thread i h) /\ (forall i l, ls' !! i = Some l -> a_log l = by_thread i (h ++ h')).
Proof. intros * Hm. apply linearizable_in_time; [intros; apply (kind_openmp_load signed w); assumption|exact Hm]. Qed.
Print Assumptions C09_gpu_order_in_time.
Print Assumptions C09_openmp_order_in_time_partial.
(** ... and mixing them (fetch_max with fetch_add on one cell) is not linearizable on OpenMP, because
    `omp critical` does not exclude `omp atomic`. *)
Theorem C09_openmp_mixed_refuted :
  exists progs s ls,
    reach (astep (new_value 32) kind_openmp) (a_init 0 progs) (s, ls) /\ all_done ls /\
    ~ exists h, legal (new_value 32) 0 h (a_val s) /\ (forall i l, ls !! i = Some l -> a_log l = by_thread i h)
        /\ (forall e, e ∈ h -> (e.1.1 < length progs)%nat).
Proof. exact openmp_mix_not_linearizable. Qed.
Print Assumptions C09_openmp_mixed_refuted.
(** tickets: concurrent increments return consecutive distinct numbers and add exactly their count *)
Theorem C09_tickets : forall w kind v0 progs s ls, 0 < w -> 0 <= v0 < 2 ^ w ->
  kind = kind_gpu \/ kind = kind_openmp ->
  (forall p op, p ∈ progs -> op ∈ p -> op = AAdd 1) ->
  reach (astep (new_value w) kind) (a_init v0 progs) (s, ls) -> all_done ls ->
  exists h,
    (forall i l, ls !! i = Some l -> a_log l = by_thread i h) /\
    h.*2 = (fun k => (v0 + Z.of_nat k) mod 2 ^ w) <$> seq 0 (sum_list (length <$> progs)) /\
    a_val s = (v0 + Z.of_nat (sum_list (length <$> progs))) mod 2 ^ w.
Proof. exact tickets. Qed.
Print Assumptions C09_tickets.
Example C09_ex : exists s ls, run (astep (new_value 32) kind_openmp) [0; 1; 0]%nat
    (a_init 5 [[AAdd 1; AAdd 1]; [AAdd 1]]) = Some (s, ls) /\ a_val s = 8 /\ all_done ls.
Proof.
  eexists _, _. split; [reflexivity|]. split; [reflexivity|].
  intros l Hl. apply elem_of_cons in Hl as [->|Hl]; [auto|]. apply elem_of_list_singleton in Hl as ->. auto.
Qed.

(** C59: the operators; [operator_fetch] is the atomic operation they run, [operator_result] what they return *)
Theorem C59_operator_results : forall signed w o old, 0 < w -> in_range signed w old -> operator_arg_in_range signed w o ->
  operator_means signed w o old (cell_value signed w (operator_fetch o) old) (operator_result signed w o old).
Proof. exact operator_results. Qed.
Print Assumptions C59_operator_results.
Example C59_ex : operator_result false 8 PreInc 255 = 0 /\ operator_result true 8 (SubAssign 100) (-100) = 56 /\ operator_result false 8 PostDec 0 = 0 /\
  in_range true 8 (-100) /\ operator_arg_in_range true 8 (SubAssign 100).
Proof. unfold operator_arg_in_range, in_range. repeat split; reflexivity || lia. Qed.

(** C10, for any equality test (also floating point ==) *)
Theorem C10_compare_exchange : forall (T : Type) (eqb : T -> T -> bool) stored expected desired,
  (eqb stored expected = true -> compare_exchange_strong eqb stored expected desired = (desired, expected, true)) /\
  (eqb stored expected = false -> compare_exchange_strong eqb stored expected desired = (stored, stored, false)).
Proof. exact @compare_exchange_spec. Qed.
Print Assumptions C10_compare_exchange.
Example C10_ex : compare_exchange_strong Z.eqb 4 4 9 = (9, 4, true) /\ compare_exchange_strong Z.eqb 4 5 9 = (4, 4, false).
Proof. split; reflexivity. Qed.

(** C11: whatever the other threads store ([env k]: content before the k-th access), the loop writes exactly
    once, at an access n where it finds env n, writes min/max of exactly that value and returns it. *)
Theorem C11_cas_loop_atomic : forall (F : Type) (of_bits : Z -> F) (to_bits : F -> Z) (pick : F -> F) (env : nat -> Z) fuel r ws,
  atomic_minmax_float of_bits to_bits pick env fuel = Ret (r, ws) ->
  exists n, (1 <= n)%nat /\ r = of_bits (env n) /\ ws = [(n, to_bits (pick (of_bits (env n))))].
Proof. exact @atomic_minmax_spec. Qed.
Print Assumptions C11_cas_loop_atomic.
(** it terminates as soon as the cell is unchanged between two consecutive accesses, even if it holds a NaN *)
Theorem C11_cas_loop_terminates : forall (F : Type) (of_bits : Z -> F) (to_bits : F -> Z) (pick : F -> F) (env : nat -> Z) n,
  (1 <= n)%nat -> env n = env (n - 1)%nat ->
  forall fuel, (n <= fuel)%nat -> exists r, atomic_minmax_float of_bits to_bits pick env fuel = Ret r.
Proof. exact @atomic_minmax_terminates. Qed.
Print Assumptions C11_cas_loop_terminates.
Theorem C11_atomicSub_ull : forall stored value, 0 <= stored < 2 ^ 64 -> 0 <= value < 2 ^ 64 ->
  atomicSub_ull stored value = (stored - value) mod 2 ^ 64.
Proof. exact atomicSub_ull_spec. Qed.
Print Assumptions C11_atomicSub_ull.
Example C11_ex : atomic_minmax_float (fun b => b) (fun b => b) (fun x => Z.min x 3) (fun k => match k with 0%nat => 9 | 1%nat => 8 | _ => 7 end) 5
   = Ret (7, [(3%nat, 3)]).
Proof. reflexivity. Qed.

(** C58: with the default order seq_cst (and acq_rel for read-modify-write) no access of the thread can move
    across the operation, in either direction. *)
Theorem C58_default_order_orders_everything_partial : forall t o loc earlier later l',
  (t = load_trace /\ o = seq_cst) \/ (t = store_trace /\ o = seq_cst) \/ (t = rmw_trace /\ (o = acq_rel \/ o = seq_cst)) ->
  reorders (earlier ++ at_loc loc (t o) ++ later) l' ->
  exists e' la', l' = e' ++ at_loc loc (t o) ++ la' /\ reorders earlier e' /\ reorders later la'.
Proof. exact default_order_full_fence. Qed.
Print Assumptions C58_default_order_orders_everything_partial.
(** C58 fails for explicitly weaker orders: the acquire load fences before instead of after its access ... *)
Theorem C58_acquire_load_refuted : exists data flag l',
  data <> flag /\ reorders (at_loc flag (load_trace acquire) ++ [MAcc data]) l' /\ l' = [MFence; MAcc data; MAcc flag].
Proof. exact acquire_load_reorders. Qed.
Print Assumptions C58_acquire_load_refuted.
(** ... and the release store after instead of before. *)
Theorem C58_release_store_refuted : exists data flag l',
  data <> flag /\ reorders ([MAcc data] ++ at_loc flag (store_trace release)) l' /\ l' = [MAcc flag; MAcc data; MFence].
Proof. exact release_store_reorders. Qed.
Print Assumptions C58_release_store_refuted.
Example C58_ex : at_loc 3 (rmw_trace seq_cst) = [MFence; MAcc 3; MFence].
Proof. reflexivity. Qed.
