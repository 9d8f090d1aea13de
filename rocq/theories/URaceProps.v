(** C77: data races on the plain (non-atomic) memory of unordered_map / unordered_set.  [races kf hash buckets t t' x] (URaceModel.v): the
    threads [t] and [t'] are about to access the plain object [x], one of them to write it.  [VALUE p]: the value of entry p, [OFFSET p]: its
    offset, [EXCESS p]: the element p of the list of free entries. *)
From Verif Require Import Base Conc SlotModel SlotSpec VectorModel UnorderedModel UnorderedSpec UnorderedProofs UConcModel UConcSpec UConcProofs UConcTop UConcProps UEraseModel UEraseSpec UEraseProofs UHistSpec UEraseFinal UEraseTop UHistProofs UEraseProps URaceModel URaceProofs.

(** ** inserts and lookups: the values and the list of free entries are never raced on; a race on an offset is between a thread that reads it
    and one insert that is about to set it from 0 to the distance of the entry [q] which holds its value already: whichever order the
    accesses take, the reader sees the end of the list or a complete entry.  Missing: C77_insert_find_race_refuted. *)
Theorem C77_inserts_lookups_partial : forall (K V : Type) kf hash keq opt ord buckets excess fuel (u : utab V) (progs : list (list (cop K V))) s ls,
  insert_find_run kf hash keq opt ord buckets excess fuel u progs s ls ->
  forall i j t t' x, i <> j -> ls !! i = Some t -> ls !! j = Some t' -> races kf hash buckets t t' x ->
  exists p w r k, x = OFFSET p /\ ls !! k = Some w /\ (w = t /\ r = t' \/ w = t' /\ r = t) /\
    plain_access kf hash buckets w = Some (OFFSET p, true) /\ plain_access kf hash buckets r = Some (OFFSET p, false) /\
    exists q v rest s' w', c_prog w = CInsert v :: rest /\ entry s q v /\ c_off s !! p = Some 0 /\
      ustep kf hash keq buckets excess k s w = Some (s', w') /\ c_off s' !! p = Some (Z.of_nat q - Z.of_nat p).
Proof.
  intros * (Hk & Hh & Ho & Hs & Hf & (u0 & Hu) & Hp & R) i j t t' x Hne Hi Hj (w & w' & A & A' & Hw). apply (reachable_rep kf hash keq opt ord buckets excess fuel u0 u Hk Hh Ho Hs Hf) in Hu.
  destruct (top_reach kf hash keq opt ord buckets excess Hk Hh Ho Hs fuel Hf u Hu progs Hp s ls R) as (G & st & G' & F' & _ & _ & I & _ & _).
  destruct Hk as (kr & ks & kt), Hs as (Hbc & HE & Hmax).
  assert (Hall : forall i j ti tj w', i <> j -> ls !! i = Some ti -> ls !! j = Some tj -> plain_access kf hash buckets ti = Some (x, true) -> plain_access kf hash buckets tj = Some (x, w') ->
    w' = false /\ exists p, x = OFFSET p /\ exists q v rest s' w', c_prog ti = CInsert v :: rest /\ entry s q v /\ c_off s !! p = Some 0 /\
      ustep kf hash keq buckets excess i s ti = Some (s', w') /\ c_off s' !! p = Some (Z.of_nat q - Z.of_nat p)).
  { clear - kr ks kt Hh Hbc HE Hmax I. intros i j ti tj w' Hne Hi Hj A A'.
    destruct (insert_races kf hash keq buckets excess kr ks kt Hh Hbc HE Hmax _ s ls G' F' I i j ti tj x w' Hne Hi Hj A A') as (-> & p & q & v & rest & -> & Ec & Ep & Hst & Hoff).
    split; [reflexivity|]. exists p. split; [reflexivity|]. eexists q, v, rest, _, _. split; [exact Ep|]. split; [exact Hst|]. split; [exact Hoff|].
    split; [unfold ustep; rewrite Ep, Ec; rewrite (proj1 (bucket_of_bkt hash keq buckets excess kr ks kt Hh Hbc HE Hmax _)), Hoff; reflexivity|]. cbn [c_off put_off]. rewrite list_lookup_insert; [reflexivity|]. exact (lookup_lt_Some _ _ _ Hoff). }
  destruct w.
  - destruct (Hall i j t t' w' Hne Hi Hj A A') as (-> & p & -> & H). exists p, t, t', i. split; [reflexivity|]. split; [exact Hi|]. auto.
  - destruct w'; [|destruct Hw; discriminate]. destruct (Hall j i t' t false (not_eq_sym Hne) Hj Hi A' A) as (_ & p & -> & H). exists p, t', t, j. split; [reflexivity|]. split; [exact Hj|]. auto.
Qed.

(** ** erases and lookups: the values and the list of free entries are never raced on; a race on an offset is between a thread that reads it and
    one erase that is about to make entry [q] skip its successor [p], the entry of the key it erases: the reader sees the way to [p] or the
    way to what follows [p].  Missing: C77_erase_find_race_refuted. *)
Theorem C77_erases_lookups_partial : forall (K V : Type) kf hash keq ord buckets excess fuel H (u : utab V) (progs : list (list (cop K V))) s ls,
  erase_find_run kf hash keq ord buckets excess fuel H u progs s ls ->
  forall i j t t' x, i <> j -> ls !! i = Some t -> ls !! j = Some t' -> races kf hash buckets t t' x ->
  exists q w r n, x = OFFSET q /\ ls !! n = Some w /\ (w = t /\ r = t' \/ w = t' /\ r = t) /\
    plain_access kf hash buckets w = Some (OFFSET q, true) /\ plain_access kf hash buckets r = Some (OFFSET q, false) /\
    exists p v k rest s' w', c_prog w = CErase k :: rest /\ leads_to s q p /\ entry s p v /\ keq (kf v) k = true /\
      estep kf hash keq buckets excess n s w = Some (s', w') /\ (forall y, leads_to s' q y <-> leads_to s p y) /\ (c_off s' !! q = Some 0 <-> c_off s !! p = Some 0).
Proof.
  run_hyps. intros i j t t' x Hne Hi Hj (w & w' & A & A' & Hw).
  destruct (etop_reach kf hash keq ord buckets excess Hk Hh Ho Hs fuel Hf u HH progs Hp (s, ls) R) as (G & st & Gn & F & _ & I0 & _ & I). cbn [fst snd] in I.
  destruct Hk as (kr & ks & kt), Hs as (Hbc & HE & Hmax).
  assert (Hall : forall i j ti tj w', i <> j -> ls !! i = Some ti -> ls !! j = Some tj -> plain_access kf hash buckets ti = Some (x, true) -> plain_access kf hash buckets tj = Some (x, w') ->
    w' = false /\ exists q, x = OFFSET q /\ exists p v k rest s' w', c_prog ti = CErase k :: rest /\ leads_to s q p /\ entry s p v /\ keq (kf v) k = true /\
      estep kf hash keq buckets excess i s ti = Some (s', w') /\ (forall y, leads_to s' q y <-> leads_to s p y) /\ (c_off s' !! q = Some 0 <-> c_off s !! p = Some 0)).
  { clear - kr ks kt Hh Hbc HE Hmax I I0. intros i j ti tj w' Hne Hi Hj A A'.
    destruct (erase_races kf hash keq buckets excess kr ks kt Hh Hbc HE Hmax _ _ G st I0 s ls Gn F I i j ti tj x w' Hne Hi Hj A A') as (-> & p & q & o & -> & Ec & _).
    split; [reflexivity|]. exists q. split; [reflexivity|].
    destruct (ei_tk _ _ _ _ _ _ _ _ _ _ _ _ I ti (elem_of_list_lookup_2 _ _ _ Hi)) as [_ T]. destruct (c_prog ti) as [|op rest] eqn:Ep; [rewrite Ec in T; discriminate|].
    rewrite Ec in T. cbn [kn] in T. destruct T as (((Eer & _ & _ & Hqn & Hpq) & (Hocc & v & Hv & Hkv) & Hq & Hnx) & po & qo & Hpo & Hqo & ->).
    destruct op as [| |k]; try discriminate. pose proof Hnx as (qo' & Hqo' & Hqo0 & Eq). rewrite Hqo in Hqo'. injection Hqo' as <-.
    eexists p, v, k, rest, _, _. split; [reflexivity|]. split; [exact Hnx|].
    split. { split; [rewrite (ei_val _ _ _ _ _ _ _ _ _ _ _ _ I); exact (proj1 Hv)|]. unfold SlotProofs.lk in Hocc. destruct (c_occ s !! p) as [[]|]; first [reflexivity|discriminate Hocc]. }
    split; [exact Hkv|]. split; [unfold estep, ustep; rewrite Ep, Ec; rewrite (proj1 (bucket_of_bkt hash keq buckets excess kr ks kt Hh Hbc HE Hmax _)), Hqo; reflexivity|].
    unfold leads_to. cbn [c_off put_off]. rewrite (list_lookup_insert _ _ _ (lookup_lt_Some _ _ _ Hqo)). destruct (Z.eqb_spec po 0) as [-> |Hpo0].
    - split; [|tauto]. intros y. split; [intros (o & [= <-] & H1 & _); congruence|intros (o & Ho & H1 & _); congruence].
    - assert (Hz : qo + po <> 0).
      { intros Hz. refine (unlink_nonzero kf hash keq buckets excess kr ks kt Hh Hbc HE Hmax _ _ G st I0 s ls Gn F I _ p q po Hqn Hnx Hpo Hpo0 _). rewrite Hqo. f_equal. lia. }
      split; [intros y; split|].
      + intros (o & [= <-] & _ & Hy). exists po. split; [exact Hpo|]. split; [exact Hpo0|]. lia.
      + intros (o & Ho & _ & Hy). exists (qo + po). split; [reflexivity|]. split; [exact Hz|]. rewrite Hpo in Ho. injection Ho as <-. lia.
      + split; intros [= Hx]; [contradiction|congruence]. }
  destruct w.
  - destruct (Hall i j t t' w' Hne Hi Hj A A') as (-> & q & -> & H0). exists q, t, t', i. split; [reflexivity|]. split; [exact Hi|]. auto.
  - destruct w'; [|destruct Hw; discriminate]. destruct (Hall j i t' t false (not_eq_sym Hne) Hj Hi A' A) as (_ & q & -> & H0). exists q, t', t, j. split; [reflexivity|]. split; [exact Hj|]. auto.
Qed.
Print Assumptions C77_inserts_lookups_partial.
Print Assumptions C77_erases_lookups_partial.

(** ** the races that exist: _offsets is an array of plain integers (unordered_base.cuh 528).  An insert links its entry while a find reads the offset *)
Ltac access := eexists false, true; split; [vm_compute; reflexivity|]; split; [vm_compute; reflexivity|auto].
Ltac members := let prog := fresh in let op := fresh in let H1 := fresh in let H2 := fresh in intros prog op H1 H2;
  repeat (apply elem_of_cons in H1 as [-> |H1]; [repeat (apply elem_of_cons in H2 as [-> |H2]; [exact I|]); inversion H2|]); inversion H1.
Lemma race_pre : key_equality Z.eqb /\ hash_respects Z.eqb uex_hash /\ any_order (fun n => seq 0 n) /\ sizes_ok 2 4 /\ (2 <= 2)%nat.
Proof.
  unfold key_equality, hash_respects, any_order, sizes_ok, INT_MAX. split; [split; [apply Z.eqb_refl|split; intros *; rewrite !Z.eqb_eq; congruence]|].
  split; [intros a b; rewrite Z.eqb_eq; congruence|]. split; [reflexivity|lia].
Qed.
Theorem C77_insert_find_race_refuted : exists (u : utab Z) s ls t t',
  insert_find_run (K:=Z) (V:=Z) (fun v => v) uex_hash Z.eqb true (fun n => seq 0 n) 2 4 2 u [[CInsert 2]; [CFind 3]] s ls /\
  ls !! 1%nat = Some t /\ ls !! 0%nat = Some t' /\ races (fun v => v) uex_hash 2 t t' (OFFSET 0).
Proof.
  destruct race_pre as (P1 & P2 & P3 & P4 & P5).
  eexists _, _, _, _, _. split.
  { split; [exact P1|]. split; [exact P2|]. split; [exact P3|]. split; [exact P4|]. split; [exact P5|].
    split; [eexists; exists [], [UInsert 1]; eexists; split; [repeat constructor|]; split; [vm_compute; reflexivity|vm_compute; reflexivity]|].
    split; [members|]. apply (run_reach (uex_step 4) (replicate 3 1%nat ++ replicate 26 0%nat)). vm_compute. reflexivity. }
  split; [vm_compute; reflexivity|]. split; [vm_compute; reflexivity|]. access.
Qed.
(** an erase unlinks its entry while a find reads the offset *)
Theorem C77_erase_find_race_refuted : exists H (u : utab Z) s ls t t',
  erase_find_run (K:=Z) (V:=Z) (fun v => v) uex_hash Z.eqb (fun n => seq 0 n) 2 4 2 H u [[CErase 2]; [CFind 3]] s ls /\
  ls !! 1%nat = Some t /\ ls !! 0%nat = Some t' /\ races (fun v => v) uex_hash 2 t t' (OFFSET 0).
Proof.
  destruct race_pre as (P1 & P2 & P3 & P4 & P5).
  eexists _, _, _, _, _, _. split.
  { split; [exact P1|]. split; [exact P2|]. split; [exact P3|]. split; [exact P4|]. split; [exact P5|].
    split; [eapply then_phase; [eapply (created _ _ _ _ _ _ _ []); vm_compute; reflexivity|]; eapply (run_calls _ _ _ _ _ _ _ _ [UInsert 1; UInsert 2]); [repeat constructor|vm_compute; reflexivity]|].
    split; [members|]. apply (run_reach (estep (V:=Z) (fun v => v) uex_hash Z.eqb 2 4) (replicate 3 1%nat ++ replicate 20 0%nat)). vm_compute. reflexivity. }
  split; [vm_compute; reflexivity|]. split; [vm_compute; reflexivity|]. access.
Qed.
(** kernels that mix inserts, erases and lookups also race on the values: a find stands on the entry of key 2, another thread erases 2, and a
    third constructs its value in the entry that became free *)
Theorem C77_value_race_refuted : exists (u0 u : utab Z) rs s ls t t',
  uex_new 4 = Ret u0 /\ uex_run u0 [UInsert 1; UInsert 2] = Ret (u, rs) /\
  Conc.reach (estep (V:=Z) (fun v => v) uex_hash Z.eqb 2 4) (shared_of u, c_start [[CFind 2]; [CErase 2]; [CInsert 3]]) (s, ls) /\
  ls !! 0%nat = Some t /\ ls !! 2%nat = Some t' /\ races (fun v => v) uex_hash 2 t t' (VALUE 5).
Proof.
  eexists _, _, _, _, _, _, _. split; [vm_compute; reflexivity|]. split; [vm_compute; reflexivity|].
  split; [apply (run_reach _ (replicate 6 0%nat ++ replicate 34 1%nat ++ replicate 22 2%nat)); vm_compute; reflexivity|].
  split; [vm_compute; reflexivity|]. split; [vm_compute; reflexivity|]. access.
Qed.
(** and on the list of free entries: an erase pushes the position of its entry while an insert, which takes the first free position, copies
    the first element (as the initial value of its result, vector_detail.cuh 243) *)
Theorem C77_excess_race_refuted : exists (u0 u : utab Z) rs s ls t t',
  uex_new 1 = Ret u0 /\ uex_run u0 [UInsert 1; UInsert 101; UInsert 2] = Ret (u, rs) /\
  Conc.reach (estep (V:=Z) (fun v => v) uex_hash Z.eqb 2 1) (shared_of u, c_start [[CErase 2]; [CInsert 102]]) (s, ls) /\
  ls !! 1%nat = Some t /\ ls !! 0%nat = Some t' /\ races (fun v => v) uex_hash 2 t t' (EXCESS 0).
Proof.
  eexists _, _, _, _, _, _, _. split; [vm_compute; reflexivity|]. split; [vm_compute; reflexivity|].
  split; [apply (run_reach _ (replicate 29 0%nat ++ replicate 13 1%nat)); vm_compute; reflexivity|].
  split; [vm_compute; reflexivity|]. split; [vm_compute; reflexivity|]. access.
Qed.
Print Assumptions C77_insert_find_race_refuted.
Print Assumptions C77_erase_find_race_refuted.
Print Assumptions C77_value_race_refuted.
Print Assumptions C77_excess_race_refuted.
