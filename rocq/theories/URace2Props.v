(** C77 for any mixture of inserts, erases and lookups.  [races kf hash buckets t t' x] (URaceModel.v): the threads [t] and [t'] are about to access the plain
    object [x], one of them to write it. *)
From Verif Require Import Base Conc SlotModel SlotSpec VectorModel UnorderedModel UnorderedSpec UConcModel UConcSpec UConcProps UEraseModel UEraseSpec UHistSpec UHistProofs UOneSpec UOneTop UAnyDefs UAnySpec UAnyTop UAnyProps URaceModel URaceProofs URaceProps URace2Proofs.

(** ** at every moment of a kernel of inserts, erases and lookups, after any history: no two threads are about to write the same value, nor the same element
    of the list of free entries.  A race on a value is between an insert about to write it and a lookup, and then the entry does not hold a value
    (C64, C81: the lookup saw it hold one that was erased since).  A race on the list of free entries is on its element 0, with a pop_back that begins.
    Missing: the offsets (C77_insert_find_race_refuted), and that there are no races. *)
Theorem C77_mixtures_partial : forall (K V : Type) trivial kf hash keq ord buckets excess fuel H (u : utab V) lss s1 (progs : list (list (cop K V))) s ls,
  after_any_kernels trivial kf hash keq ord buckets excess fuel H u lss s1 ->
  Conc.reach (kernel_step kf hash keq buckets excess trivial) (s1, c_start progs) (s, ls) ->
  forall i j t t' x, i <> j -> ls !! i = Some t -> ls !! j = Some t' -> races kf hash buckets t t' x ->
  (exists p, x = OFFSET p) \/
  exists w r, (w = t /\ r = t' \/ w = t' /\ r = t) /\ plain_access kf hash buckets w = Some (x, true) /\ plain_access kf hash buckets r = Some (x, false) /\
    ((exists p, x = VALUE p /\ c_occ s !! p = Some false) \/ (x = EXCESS 0 /\ exists e q, c_pc r = IPop e q /\ q_pc q = QIdle)).
Proof.
  any_hyps. intros HR. destruct (arest_start kf hash keq buckets excess s1 progs R1) as (F & I0). destruct (ainv_reach kf hash keq buckets excess HP _ _ _ _ _ _ _ _ I0 HR) as (F' & P' & I).
  intros i j t t' x Hne Hi Hj (w & w' & A & A' & Hw). destruct w.
  - destruct (mixed_races kf hash keq buckets excess HP _ _ _ _ _ I i j t t' x w' Hne Hi Hj A A') as [Hx|(-> & Hx)]; [left; exact Hx|]. right. exists t, t'. auto.
  - destruct w'; [|destruct Hw; discriminate]. destruct (mixed_races kf hash keq buckets excess HP _ _ _ _ _ I j i t' t x false (not_eq_sym Hne) Hj Hi A' A) as [Hx|(_ & Hx)]; [left; exact Hx|]. right. exists t', t. auto.
Qed.
Print Assumptions C77_mixtures_partial.

(** the hypotheses: the value race and the race on element 0 of the list of free entries of C77_value_race_refuted and C77_excess_race_refuted, as kernels after
    a history *)
Example C77_mixtures_ex : exists H (u : utab Z) s ls t t',
  after_any_kernels (K:=Z) (V:=Z) true (fun v => v) uex_hash Z.eqb (fun n => seq 0 n) 2 4 2 H u [] (shared_of u) /\
  Conc.reach (kernel_step (V:=Z) (fun v => v) uex_hash Z.eqb 2 4 true) (shared_of u, c_start [[CFind 2]; [CErase 2]; [CInsert 3]]) (s, ls) /\
  ls !! 0%nat = Some t /\ ls !! 2%nat = Some t' /\ races (fun v => v) uex_hash 2 t t' (VALUE 5) /\ c_occ s !! 5%nat = Some false.
Proof.
  destruct race_pre as (P1 & P2 & P3 & P4 & P5).
  eexists _, _, _, _, _, _. split.
  { split; [exact P1|]. split; [exact P2|]. split; [exact P3|]. split; [exact P4|]. split; [exact P5|]. split; [|constructor].
    eapply then_phase; [eapply (created _ _ _ _ _ _ _ []); vm_compute; reflexivity|]; eapply (run_calls _ _ _ _ _ _ _ _ [UInsert 1; UInsert 2]); [repeat constructor|vm_compute; reflexivity]. }
  split; [apply (run_reach _ (replicate 6 0%nat ++ replicate 34 1%nat ++ replicate 22 2%nat)); vm_compute; reflexivity|].
  split; [vm_compute; reflexivity|]. split; [vm_compute; reflexivity|]. split; [access|]. vm_compute. reflexivity.
Qed.
