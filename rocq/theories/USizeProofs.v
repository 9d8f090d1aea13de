(** The counter of an unordered container during a kernel. *)
From Verif Require Import Base Conc SlotModel SlotSpec SlotProofs VectorModel UnorderedModel UnorderedSpec UConcModel UConcSpec UConcProofs UEraseModel UEraseSpec UMixShape UOneSpec UOneDefs UAnyDefs UAnySpec UAnyTop.

Section count.
  Context {K V : Type} (kf : V -> K) (hash : K -> Z) (keq : K -> K -> bool) (bc E : nat).
  Context (HP : key_equality keq /\ hash_respects keq hash /\ sizes_ok bc E).
  Lemma len_bind {A B} (f : A -> list B) (l : list A) : Z.of_nat (length (l ≫= f)) = sumZ (fun x => Z.of_nat (length (f x))) l.
  Proof. induction l as [|x l IH]; [reflexivity|]. rewrite bind_cons, app_length. cbn [sumZ]. lia. Qed.
  Definition runI (t : cthread K V) : Z := Z.of_nat (length (match c_pc t, c_prog t with UIdle, _ => [] | _, CInsert v :: _ => [v] | _, _ => [] end)).
  Definition runE (t : cthread K V) : Z := Z.of_nat (length (match c_pc t, c_prog t with UIdle, _ => [] | _, CErase v :: _ => [v] | _, _ => [] end)).
  Definition doneI (t : cthread K V) : Z := Z.of_nat (length (omap (fun x => match x with (CInsert v, RInserted _) => Some v | _ => None end) (c_log t))).
  Definition doneE (t : cthread K V) : Z := Z.of_nat (length (omap (fun x => match x with (CErase k, RErased true) => Some k | _ => None end) (c_log t))).
  Lemma thread_bounds M0 s ls F P i t : ainv kf hash keq bc E M0 s ls F P -> ls !! i = Some t ->
    doneI t - doneE t - runE t <= Z.of_nat (length (inst t)) - Z.of_nat (length (erst t)) + pendt t <= doneI t - doneE t + runI t /\ 0 <= pendt t <= runI t + runE t.
  Proof.
    intros I Hi. pose proof (a_thr _ _ _ _ _ _ _ _ _ _ I i t Hi) as T. unfold athr in T. unfold inst, erst, pendt, runI, runE, doneI, doneE, logI, logE. rewrite !app_length.
    destruct (c_prog t) as [|op r] eqn:Ep; [rewrite T; cbn; lia|].
    generalize (omap (fun x : cop K V * cret => match x with (CInsert v, RInserted _) => Some v | _ => None end) (c_log t)). generalize (omap (fun x : cop K V * cret => match x with (CErase k, RErased true) => Some k | _ => None end) (c_log t)). intros l1 l2.
    destruct (c_pc t) eqn:Epc; destruct op as [v|k|k]; cbn [leavesI leavesE cpend length];
      try match goal with |- context [match ?x with _ => _ end] => is_var x; destruct x end; cbn [length]; try (clear; lia); exfalso; cbn [akn] in T; try exact T; destruct T as [T _]; exact T.
  Qed.
  Lemma count_now M0 s ls F P : ainv kf hash keq bc E M0 s ls F P ->
    let base := Z.of_nat (length M0) + Z.of_nat (length (inserted_values ls)) - Z.of_nat (length (erased_keys ls)) in
    base - Z.of_nat (length (running_erases ls)) <= c_count s <= base + Z.of_nat (length (running_inserts ls)) /\
    Z.of_nat (length (stored bc E s)) <= c_count s <= Z.of_nat (length (stored bc E s)) + Z.of_nat (length (running_inserts ls)) + Z.of_nat (length (running_erases ls)).
  Proof.
    intros I base. pose proof (a_count _ _ _ _ _ _ _ _ _ _ I) as Hc. pose proof (a_cons _ _ _ _ _ _ _ _ _ _ I) as H1. pose proof (a_rem _ _ _ _ _ _ _ _ _ _ I) as H2.
    apply Permutation_length in H1. apply Permutation_length in H2. rewrite !app_length, !fmap_length in *.
    assert (L1 : Z.of_nat (length (ls ≫= inst)) = sumZ (fun t => Z.of_nat (length (inst t))) ls) by apply len_bind.
    assert (L2 : Z.of_nat (length (ls ≫= erst)) = sumZ (fun t => Z.of_nat (length (erst t))) ls) by apply len_bind.
    assert (L3 : Z.of_nat (length (inserted_values ls)) = sumZ doneI ls) by apply len_bind.
    assert (L4 : Z.of_nat (length (erased_keys ls)) = sumZ doneE ls) by apply len_bind.
    assert (L5 : Z.of_nat (length (running_inserts ls)) = sumZ runI ls) by apply len_bind.
    assert (L6 : Z.of_nat (length (running_erases ls)) = sumZ runE ls) by apply len_bind.
    assert (B : sumZ doneI ls - sumZ doneE ls - sumZ runE ls <= sumZ (fun t => Z.of_nat (length (inst t))) ls - sumZ (fun t => Z.of_nat (length (erst t))) ls + sumZ pendt ls <= sumZ doneI ls - sumZ doneE ls + sumZ runI ls /\
      0 <= sumZ pendt ls <= sumZ runI ls + sumZ runE ls).
    { assert (G : forall t, t ∈ ls -> doneI t - doneE t - runE t <= Z.of_nat (length (inst t)) - Z.of_nat (length (erst t)) + pendt t <= doneI t - doneE t + runI t /\ 0 <= pendt t <= runI t + runE t).
      { intros t Ht. apply elem_of_list_lookup in Ht as [i Hi]. exact (thread_bounds _ _ _ _ _ i t I Hi). }
      clear - G. induction ls as [|t l IH]; [cbn; lia|]. cbn [sumZ]. pose proof (G t ltac:(left)). specialize (IH (fun u Hu => G u (elem_of_list_further _ _ _ Hu))). lia. }
    unfold base. lia.
  Qed.
End count.
