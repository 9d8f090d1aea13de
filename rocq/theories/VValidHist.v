(** C91, C92 after histories of kernels (C84, C85): there valid() tells whether the container is as good as a new one.
    Histories that meet the hypotheses: C84_ex (VHistProps.v), C85_ex (DHistProps.v). *)
From Verif Require Import Base Conc SlotModel SlotSpec Lifetime VectorModel VectorSpec VectorProofs RejectProofs VDebtSpec VDebtProofs VHistSpec VHistProofs.
From Verif Require Import DequeModel DequeSpec DequeProofs DDebtSpec DDebtProofs DHistSpec DHistProofs VValidProps DValidProps.

(** after any history of kernels and calls the vector meets the hypotheses of C91 *)
Theorem C91_in_histories : forall (T : Type) (HT : EqDecision T) (opt : bool) (ord : nat -> list nat), (forall n, ord n ≡ₚ seq 0 n) ->
  forall cap : nat, 0 < Z.of_nat cap <= INT_MAX -> forall v0 (ps : list (@phase T)) v,
  vec_create (T:=T) (Z.of_nat cap) = Ret v0 -> history_run opt ord cap v0 ps v -> (forall p, p ∈ ps -> phase_fits cap p) ->
  slots_ok true v /\ no_gap v.
Proof.
  intros T HT opt ord Hord cap Hcap v0 ps v E R Hf. destruct (history_ok opt ord Hord cap Hcap ps v0 [] 0 v (created opt ord Hord cap Hcap v0 E) R Hf) as (l & k & _ & D).
  destruct D as ((w & Rw & (N1 & N2 & N3 & _)) & _). destruct (rep_slots opt cap w l Hcap Rw) as [(H1 & H2 & H3 & H4 & _) G].
  unfold slots_ok, no_gap, v_capacity in *. rewrite N1, N2, N3. split; [|exact G]. split; [exact H1|]. split; [exact H2|]. split; [exact H3|]. split; [exact H4|discriminate].
Qed.
Print Assumptions C91_in_histories.

(** after any history of kernels and calls a deque (queue, stack) on which valid() returns true meets the hypotheses of C92: whatever was rejected before,
    it is a bounded list again *)
Theorem C92_in_histories : forall (T : Type) (HT : EqDecision T) (opt : bool) (ord : nat -> list nat), (forall n, ord n ≡ₚ seq 0 n) ->
  forall cap : nat, 0 < Z.of_nat cap <= INT_MAX -> forall junk d0, deq_create (T:=T) junk (Z.of_nat cap) = Ret d0 ->
  forall (ps : list (@dphase T)) d, dhistory_run opt ord cap d0 ps d -> (forall p, p ∈ ps -> dphase_fits opt p) ->
  d_valid d = true -> slots_ok true (d_v d) /\ ring_ok d.
Proof.
  intros T HT opt ord Hord cap Hcap junk d0 E ps d R Hf Hv. destruct (dhistory_ok opt ord Hord cap Hcap ps d0 [] 0 d (dcreated opt ord Hord cap Hcap junk d0 E) R Hf) as (l & k & _ & D).
  destruct D as ((b & w & Rw & N) & _). rewrite (valid_off opt ord Hord cap Hcap _ _ _ _ _ Rw N) in Hv. apply Z.eqb_eq in Hv. subst k. destruct N as ((N1 & N2 & N3 & N4) & B1 & B2 & B3).
  assert (R' : DequeProofs.drep true cap b d l).
  { destruct Rw. split; rewrite ?N1, ?N2, ?N3, ?N4, ?B1, ?B2, ?B3; auto; [lia|discriminate]. }
  destruct (drep_slots true cap b d l Hcap (fun k => Permutation_refl _) R') as (H1 & H2 & _). auto.
Qed.
Print Assumptions C92_in_histories.
