(** C82: a vector whose limits were exceeded by concurrent calls, used by one caller afterwards. *)
From Verif Require Import Base Conc SlotModel SlotSpec VectorModel VectorSpec RejectProofs VDebtSpec VDebtProofs.

(** ** for every capacity, initial content, number of threads, programs of push_back/pop_back calls and interleaving: once no call is running, every
    sequence of calls by one caller gives the results of a list bounded by the capacity with a debt (debt_run, VDebtSpec.v), which starts as the stored
    elements and the number of pushes minus the number of pops that were rejected after changing the counter ([rejected], RejectProofs.v).  In particular
    size(), empty(), full(), operator[], at(), front(), back() and device_range() are exact.  The counter is an int: it has to fit. *)
Theorem C82_results_after_overflow_partial : forall (T : Type) (opt : bool) (ord : nat -> list nat), (forall n, ord n ≡ₚ seq 0 n) ->
  forall (cap : nat) (l : list T), (length l <= cap)%nat -> 0 < Z.of_nat cap <= INT_MAX ->
  forall progs : list (list (qop T)), (forall p op, p ∈ progs -> op ∈ p -> vector_call op) ->
  forall s ls (ops : list (vop T)), reach (qstep (vctl cap)) (vec_conc_start cap l, q_start progs) (s, ls) -> quiescent ls -> - 2 ^ 31 <= v_n (as_vec s) <= INT_MAX ->
  (forall op, op ∈ ops -> op_fits (Z.of_nat cap) op) ->
  match debt_run (Z.of_nat cap) (stored (q_data s)) (rejected true progs ls - rejected false progs ls) ops with
  | Ret (l', k', rs) => exists v', vec_run opt ord (as_vec s) ops = Ret (v', rs) /\ v_range v' = Ret l' /\ (v_valid v' = true <-> k' = 0)
  | UB => vec_run opt ord (as_vec s) ops = UB
  | Hang => False
  end.
Proof. exact @after_overflow. Qed.
Print Assumptions C82_results_after_overflow_partial.

Section same.
  Context (T : Type) (opt : bool) (ord : nat -> list nat) (Hord : forall n, ord n ≡ₚ seq 0 n) (cap : nat) (l : list T) (Hl : (length l <= cap)%nat) (Hcap : 0 < Z.of_nat cap <= INT_MAX).
  Context (progs : list (list (qop T))) (Hwf : forall p op, p ∈ progs -> op ∈ p -> vector_call op).
  Context (s : qshared T Z) (ls : list (qthread T)) (ops : list (vop T)).
  Context (R : reach (qstep (vctl cap)) (vec_conc_start cap l, q_start progs) (s, ls)) (Hq : quiescent ls) (HB : - 2 ^ 31 <= v_n (as_vec s) <= INT_MAX).
  Context (Hf : forall op, op ∈ ops -> op_fits (Z.of_nat cap) op).
  (** ... that is: with n more rejected pushes than pops, the next n calls of pop_back return false, and all calls after them have the results of a list
      that holds the stored elements (C18) *)
  Theorem C82_pops_that_fail : forall n, rejected true progs ls = rejected false progs ls + Z.of_nat n ->
    match spec_vrun (Z.of_nat cap) (stored (q_data s)) ops with
    | Ret (l', rs) => exists v', vec_run opt ord (as_vec s) (replicate n VPop ++ ops) = Ret (v', replicate n (ROpt None) ++ rs) /\ v_range v' = Ret l' /\ v_valid v' = true
    | UB => vec_run opt ord (as_vec s) (replicate n VPop ++ ops) = UB
    | Hang => False
    end.
  Proof.
    intros n Hn. pose proof (after_overflow opt ord Hord cap l Hl Hcap progs Hwf s ls (replicate n VPop ++ ops) R Hq HB) as H.
    replace (rejected true progs ls - rejected false progs ls) with (Z.of_nat n) in H by lia. rewrite debt_pops in H.
    specialize (H ltac:(intros op Ho; apply elem_of_app in Ho as [Ho|Ho]; [apply elem_of_replicate in Ho as [-> _]; exact Logic.I|apply Hf; exact Ho])).
    destruct (spec_vrun _ _ ops) as [[l' rs]| |]; cbn [obind] in H; auto. destruct H as (v' & E & E1 & E2). exists v'. split; [exact E|]. split; [exact E1|]. apply E2. reflexivity.
  Qed.
  (** ... with n more rejected pops than pushes, the next n calls of push_back return false *)
  Theorem C82_pushes_that_fail : forall xs : list T, rejected false progs ls = rejected true progs ls + Z.of_nat (length xs) ->
    match spec_vrun (Z.of_nat cap) (stored (q_data s)) ops with
    | Ret (l', rs) => exists v', vec_run opt ord (as_vec s) ((VPush <$> xs) ++ ops) = Ret (v', replicate (length xs) (RBool false) ++ rs) /\ v_range v' = Ret l' /\ v_valid v' = true
    | UB => vec_run opt ord (as_vec s) ((VPush <$> xs) ++ ops) = UB
    | Hang => False
    end.
  Proof.
    intros xs Hn. pose proof (after_overflow opt ord Hord cap l Hl Hcap progs Hwf s ls ((VPush <$> xs) ++ ops) R Hq HB) as H.
    replace (rejected true progs ls - rejected false progs ls) with (- Z.of_nat (length xs)) in H by lia. rewrite debt_pushes in H.
    specialize (H ltac:(intros op Ho; apply elem_of_app in Ho as [Ho|Ho]; [apply elem_of_list_fmap in Ho as (x & -> & _); exact Logic.I|apply Hf; exact Ho])).
    destruct (spec_vrun _ _ ops) as [[l' rs]| |]; cbn [obind] in H; auto. destruct H as (v' & E & E1 & E2). exists v'. split; [exact E|]. split; [exact E1|]. apply E2. reflexivity.
  Qed.
  (** ... and clear() of a vector that stores an element makes it as good as a new one, whatever was rejected.  Missing: this for a vector that stores none *)
  Theorem C82_clear_repairs_partial : stored (q_data s) <> [] ->
    match spec_vrun (Z.of_nat cap) [] ops with
    | Ret (l', rs) => exists v', vec_run opt ord (as_vec s) (VClear :: ops) = Ret (v', RUnit :: rs) /\ v_range v' = Ret l' /\ v_valid v' = true
    | UB => vec_run opt ord (as_vec s) (VClear :: ops) = UB
    | Hang => False
    end.
  Proof.
    intros Hn. pose proof (after_overflow opt ord Hord cap l Hl Hcap progs Hwf s ls (VClear :: ops) R Hq HB) as H. rewrite debt_clear in H by exact Hn.
    specialize (H ltac:(intros op Ho; apply elem_of_cons in Ho as [-> | Ho]; [exact Logic.I|apply Hf; exact Ho])).
    destruct (spec_vrun _ _ ops) as [[l' rs]| |]; cbn [obind] in H; auto. destruct H as (v' & E & E1 & E2). exists v'. split; [exact E|]. split; [exact E1|]. apply E2. reflexivity.
  Qed.
End same.
Print Assumptions C82_pops_that_fail.
Print Assumptions C82_pushes_that_fail.
Print Assumptions C82_clear_repairs_partial.

(** ** clear() returns at once if empty() is true, so it does not repair an empty vector: two pops of the one element of a vector of capacity 2; one
    returns false; nobody is running; clear() returns, valid() is false and push_back returns false although the vector is empty *)
Theorem C82_clear_of_empty_refuted : exists (progs : list (list (qop nat))) s ls,
  (forall p op, p ∈ progs -> op ∈ p -> vector_call op) /\
  reach (qstep (vctl 2)) (vec_conc_start 2 [7%nat], q_start progs) (s, ls) /\ quiescent ls /\ map q_log ls = [[Popped 7%nat]; [OutOfBounds]] /\
  forall (opt : bool) (ord : nat -> list nat), exists v,
    vec_run opt ord (as_vec s) [VSize; VClear; VValid; VPush 8%nat; VSize; VValid] = Ret (v, [RNum 0; RUnit; RBool false; RBool false; RNum 0; RBool true]).
Proof.
  exists [[QPop KPopBack]; [QPop KPopBack]]. eexists _, _. split.
  - intros p op Hp Hop. repeat (apply elem_of_cons in Hp as [-> | Hp]; [repeat (apply elem_of_cons in Hop as [-> | Hop]; [exact Logic.I|]); inversion Hop|]). inversion Hp.
  - split; [apply (run_reach _ [0; 0; 1; 1; 0; 1; 0; 0; 0; 0; 0; 0]%nat); vm_compute; reflexivity|].
    split; [intros t Ht; repeat (apply elem_of_cons in Ht as [-> | Ht]; [reflexivity|]); inversion Ht|].
    split; [reflexivity|]. intros opt ord. eexists. vm_compute. reflexivity.
Qed.
Print Assumptions C82_clear_of_empty_refuted.

(** three pushes into a vector of capacity 1: two are rejected; the next two pops fail, the third returns the element; or: clear() makes it a new one *)
Example C82_ex : exists s ls v1 v2, let progs := [[QPush KPushBack 7%nat]; [QPush KPushBack 8%nat]; [QPush KPushBack 9%nat]] in
  reach (qstep (vctl 1)) (vec_conc_start 1 [], q_start progs) (s, ls) /\ quiescent ls /\ rejected true progs ls = 2 /\ rejected false progs ls = 0 /\ stored (q_data s) = [8%nat] /\
  vec_run false (fun n => seq 0 n) (as_vec s) [VValid; VRange; VPop; VPop; VPop; VValid; VPop] =
    Ret (v1, [RBool false; RList [8%nat]; ROpt None; ROpt None; ROpt (Some 8%nat); RBool true; ROpt None]) /\
  vec_run false (fun n => seq 0 n) (as_vec s) [VPush 5; VClear; VPush 6; VPush 7; VPop; VValid]%nat =
    Ret (v2, [RBool false; RUnit; RBool true; RBool false; ROpt (Some 6%nat); RBool true]).
Proof.
  eexists _, _, _, _. split; [apply (run_reach _ [0; 0; 1; 1; 2; 2; 1; 0; 2; 1; 1; 1; 1; 1]%nat); vm_compute; reflexivity|].
  split; [intros t Ht; repeat (apply elem_of_cons in Ht as [-> | Ht]; [reflexivity|]); inversion Ht|]. repeat (split; [vm_compute; reflexivity|]). vm_compute. reflexivity.
Qed.
