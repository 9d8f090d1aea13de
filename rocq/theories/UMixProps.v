(** C67: kernels that mix inserts and erases.  The checks that insert and erase repeat under their locks only compare positions.  An excess
    entry that is erased goes back to _excess_list_positions and is handed to the next insert, of any bucket, so a walk that stands on it goes
    on in another bucket's list, and the position it compares may have come back in that list as well.  Both theorems: value type with
    trivial destructor ([estep]), every key occurs in one call only. *)
From Verif Require Import Base Conc SlotModel VectorModel UnorderedModel UnorderedSpec UConcModel UConcSpec UEraseModel UEraseSpec UConcProps.
Definition mex_step (excess : nat) := estep (V:=Z) (fun v => v) uex_hash Z.eqb 2 excess.
Definition sched_of (l : list (nat * nat)) : list nat := l ≫= fun x => replicate x.1 x.2.

(** ** a successful insert is lost.  Stored: the keys 1, 2, 3 in the list 0 -> 5 -> 4 of bucket 0, and 100 in bucket 1.  Thread 0 inserts 7 and has
    found the end 4 of the list; 3 is erased; thread 0 locks entry 4 and walks again; while it stands on entry 5, 2 is erased and 101 and 102
    are inserted into bucket 1, as 1 -> 5 -> 4.  The walk ends in entry 4: 7 is appended to the list of bucket 1.  All inserts report success
    and all calls have returned, the container counts 5 values, and says that 7 is not there, refuses to erase it and stores it again; valid() fails *)
Theorem C67_inserted_key_lost_refuted : exists (u0 u : utab Z) rs s ls p,
  uex_new 4 = Ret u0 /\ uex_run u0 [UInsert 1; UInsert 2; UInsert 3; UInsert 100] = Ret (u, rs) /\
  Conc.reach (mex_step 4) (shared_of u, c_start [[CInsert 7]; [CErase 3; CErase 2]; [CInsert 101; CInsert 102]]) (s, ls) /\ all_returned ls /\
  c_log <$> ls = [[(CInsert 7, RInserted p)]; [(CErase 3, RErased true); (CErase 2, RErased true)]; [(CInsert 101, RInserted 5); (CInsert 102, RInserted 4)]] /\
  entry s p 7 /\
  u_valid (fun v => v) uex_hash Z.eqb (fun n => seq 0 n) (utab_of 2 (u_indices u) (ended s)) = Ret false /\
  (exists b, uex_run (utab_of 2 (u_indices u) (ended s)) [USize; UContains 7; UErase 7; UContains 101; UErase 101; UInsert 7; USize; URange] = Ret b /\
     b.2 = [UNum 5; UBool false; UNum 0; UBool true; UNum 1; UIns true (Some 7); UNum 5; UList [1; 100; 7; 102; 7]]).
Proof.
  eexists _, _, _, _, _, _. split; [vm_compute; reflexivity|]. split; [vm_compute; reflexivity|].
  split; [apply (run_reach _ (sched_of [(20, 0); (46, 1); (3, 0); (34, 1); (28, 2); (40, 2); (21, 0)]%nat)); vm_compute; reflexivity|].
  split; [intros t Ht; repeat (apply elem_of_cons in Ht as [-> |Ht]; [split; reflexivity|]); inversion Ht|].
  split; [vm_compute; reflexivity|]. split; [split; vm_compute; reflexivity|]. split; [vm_compute; reflexivity|].
  eexists. split; [vm_compute; reflexivity|]. vm_compute. reflexivity.
Qed.
Print Assumptions C67_inserted_key_lost_refuted.

(** ** an access outside the arrays, with one inserting thread, and erases and inserts of different buckets.  Stored: the keys 1 to 5 in the list
    0 -> 5 -> 6 -> 3 -> 4 of bucket 0, and 100 in bucket 1; the container has 7 entries.  Thread 0 erases 4 and has found entry 3 and its
    predecessor 6; 3 is erased; thread 0 locks the entries 3 and 6 and walks again; while it stands on entry 5, 2 is erased and 101 and 102
    are inserted into bucket 1, as 1 -> 5 -> 6.  The walk ends in entry 6, so thread 0 takes entry 6 for the predecessor of entry 3 and adds the
    offset of entry 3 to that of entry 6.  Entry 3 is given back although bucket 0 still leads to it, and the list of bucket 1 leads to entry 7 *)
Theorem C67_access_out_of_bounds_refuted : exists (u0 u : utab Z) rs s ls t,
  uex_new 5 = Ret u0 /\
  uex_run u0 [UInsert 100; UInsert 201; UInsert 202; UInsert 203; UInsert 204; UErase 203; UErase 204; UErase 201; UErase 202;
              UInsert 1; UInsert 2; UInsert 3; UInsert 4; UInsert 5] = Ret (u, rs) /\
  (exists w, uex_run u [UValid; URange] = Ret w /\ w.2 = [UBool true; UList [1; 100; 4; 5; 2; 3]]) /\
  Conc.reach (mex_step 5) (shared_of u, c_start [[CErase 4]; [CErase 3; CErase 2]; [CInsert 101; CInsert 102]; [CFind 103]]) (s, ls) /\
  c_log <$> ls = [[(CErase 4, RErased true)]; [(CErase 3, RErased true); (CErase 2, RErased true)]; [(CInsert 101, RInserted 5); (CInsert 102, RInserted 6)]; []] /\
  ls !! 3%nat = Some t /\ c_prog t = [CFind 103] /\ c_pc t = FOcc FUser 7 /\ length (c_occ s) = 7%nat /\ length (c_values s) = 7%nat /\ mex_step 5 3 s t = None /\
  leads_to s 0 3 /\ c_occ s !! 3%nat = Some false /\ 3 ∈ (omap id (take (Z.to_nat (q_c (c_ex s))) (q_data (c_ex s)))).
Proof.
  eexists _, _, _, _, _, _. split; [vm_compute; reflexivity|]. split; [vm_compute; reflexivity|]. split; [eexists; split; [vm_compute; reflexivity|]; vm_compute; reflexivity|].
  split; [apply (run_reach _ (sched_of [(21, 0); (48, 1); (14, 0); (36, 1); (28, 2); (40, 2); (20, 0); (13, 3)]%nat)); vm_compute; reflexivity|].
  split; [vm_compute; reflexivity|]. split; [vm_compute; reflexivity|]. split; [vm_compute; reflexivity|]. split; [vm_compute; reflexivity|].
  split; [vm_compute; reflexivity|]. split; [vm_compute; reflexivity|]. split; [vm_compute; reflexivity|].
  split; [exists 3; split; [vm_compute; reflexivity|]; split; [discriminate|reflexivity]|]. split; [vm_compute; reflexivity|].
  vm_compute. set_solver.
Qed.
Print Assumptions C67_access_out_of_bounds_refuted.
