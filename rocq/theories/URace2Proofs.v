(** Data races in any mixture of inserts, erases and lookups (C77), from the invariant of UAnyDefs.v. *)
From Verif Require Import Base Conc SlotModel SlotSpec SlotProofs VectorModel VectorProofs VectorConcProofs UnorderedModel UnorderedSpec UnorderedProofs UConcModel UConcSpec UConcProofs UConcEnd UEraseModel UEraseProofs UMixVec UMixShape UOneVec UOneDefs UOneUpd UAnyVec UAnyDefs URaceModel.

Section any.
  Context {K V : Type} (kf : V -> K) (hash : K -> Z) (keq : K -> K -> bool) (bc E : nat).
  Hypothesis HP : key_equality keq /\ hash_respects keq hash /\ sizes_ok bc E.
  Context (M0 : list V) (s : cshared V) (ls : list (cthread K V)) (F : list nat) (P : list (V * K)).
  Hypothesis I : ainv kf hash keq bc E M0 s ls F P.

  Lemma value_writer i t p : ls !! i = Some t -> plain_access kf hash bc t = Some (VALUE p, true) -> c_occ s !! p = Some false /\ aown kf hash bc s t p.
  Proof using HP I.
    intros Hi Ha. pose proof (a_thr _ _ _ _ _ _ _ _ _ _ I i t Hi) as T. unfold athr in T. unfold plain_access in Ha. destruct (c_prog t) as [|op rest] eqn:Ep; [discriminate|].
    assert (HX : forall q, excess_access q <> Some (VALUE p, true)).
    { intros q. unfold excess_access. destruct (q_prog q) as [|[|] ?]; try discriminate; destruct (q_pc q); discriminate. }
    destruct (c_pc t) eqn:Ec; try discriminate; try (exfalso; exact (HX _ Ha)); cbn [akn] in T.
    - assert (Eb : bucket_of hash bc (op_key kf op) = Some (bkt hash bc (op_key kf op))) by apply (mx_bucket hash keq bc E HP). rewrite Eb in Ha. injection Ha as <-.
      destruct T as [_ T]. split; [exact T|]. right. split; [|right; apply (mx_bkt hash keq bc E HP)]. unfold heldt, tb. rewrite Ep, Ec. left.
    - injection Ha as <-. assert (Hh : p0 ∈ hndt t) by (unfold hndt; rewrite Ec; left).
      split; [|left; exact Hh]. apply (g_hand kf hash keq bc E M0 s ls F P I i t p0 Hi Hh).
  Qed.
  (** an access to the list of free entries is under a lock, but for the first one of pop_back *)
  Lemma excess_locked i t p w : ls !! i = Some t -> plain_access kf hash bc t = Some (EXCESS p, w) ->
    element_access (projt t) = Some p \/ (w = false /\ p = 0%nat /\ exists e q, c_pc t = IPop e q /\ q_pc q = QIdle).
  Proof using I.
    intros Hi. pose proof (a_thr _ _ _ _ _ _ _ _ _ _ I i t Hi) as T. unfold athr in T. unfold plain_access, projt. destruct (c_prog t) as [|op rest]; [discriminate|].
    assert (HX : forall q, excess_access q = Some (EXCESS p, w) -> element_access q = Some p \/ (w = false /\ p = 0%nat /\ q_pc q = QIdle)).
    { intros q. unfold excess_access, element_access. destruct (q_prog q) as [|[|] ?]; try discriminate; destruct (q_pc q); try discriminate; intros [= <- <-]; auto. }
    destruct (c_pc t) eqn:Ec; try discriminate; cbn [proj_at]; cbn [akn] in T; intros H.
    - destruct (bucket_of hash bc (op_key kf op)); discriminate.
    - destruct (HX _ H) as [Hx|(-> & -> & Hq)]; [left; exact Hx|]. right. eauto 6.
    - destruct (HX _ H) as [Hx|(-> & -> & Hq)]; [left; exact Hx|]. exfalso. destruct T as (_ & T & _). unfold pushing_of in T. destruct T as [T _]. unfold excess_access in H. rewrite T in H. destruct (q_pc t0); discriminate.
  Qed.

  Lemma mixed_races i j t t' x w : i <> j -> ls !! i = Some t -> ls !! j = Some t' -> plain_access kf hash bc t = Some (x, true) -> plain_access kf hash bc t' = Some (x, w) ->
    (exists p, x = OFFSET p) \/ (w = false /\ ((exists p, x = VALUE p /\ c_occ s !! p = Some false) \/ (x = EXCESS 0 /\ exists e q, c_pc t' = IPop e q /\ q_pc q = QIdle))).
  Proof using HP I.
    intros Hne Hi Hj Ha Hb. destruct x as [p|p|p]; [right|left; eauto|right].
    - destruct (value_writer i t p Hi Ha) as [Ho Hown]. destruct w; [|eauto]. exfalso. destruct (value_writer j t' p Hj Hb) as [_ Hown'].
      exact (g_excl kf hash keq bc E M0 s ls F P I i j t t' p Hne Hi Hj Hown Hown').
    - destruct (excess_locked i t p true Hi Ha) as [Hx|(? & _)]; [|discriminate]. destruct (excess_locked j t' p w Hj Hb) as [Hy|(-> & -> & Hq)]; [|eauto].
      exfalso. apply Hne. eapply (no_race E vm (fun _ => True) _ _ _ i j (projt t) (projt t') p (a_vec _ _ _ _ _ _ _ _ _ _ I)); [rewrite list_lookup_fmap, Hi; reflexivity|rewrite list_lookup_fmap, Hj; reflexivity|exact Hx|exact Hy].
  Qed.
End any.
