(** Kernels whose keys do not collide (C78): the first state, and the states between the kernels. *)
From Verif Require Import Base Conc SlotModel VectorModel VectorProofs UnorderedModel UnorderedSpec UnorderedProofs UConcModel UConcSpec UConcProofs UConcReach UEraseModel UEraseSpec UMixSpec UMixShape UMixTop UOneSpec UProgSpec USepSpec USepProofs USepTop USepProg USepFind.

Section kern.
  Context {K V : Type} (kf : V -> K) (hash : K -> Z) (keq : K -> K -> bool) (bc E : nat).
  Hypothesis HP : key_equality keq /\ hash_respects keq hash /\ sizes_ok bc E.
  Notation n := (bc + E)%nat.
  Lemma start_distinct (u : utab V) G st : urep kf hash keq true bc E (replicate n false) u G st -> distinct kf keq (content_of (shared_of u)).
  Proof using HP.
    intros R. pose proof HP as ((kr & ks & kt) & Hh & Hbc & HE & Hmax).
    assert (I0 : cinv (K:=K) kf hash keq bc E (G ≫= gvals) (shared_of u) [] G st).
    { refine (start_cinv kf hash keq bc E kr ks kt Hh Hbc HE Hmax true u G st [] R _). intros p op H. inversion H. }
    intros p q v w Hv Hw Hk. apply content_entry in Hv. apply content_entry in Hw.
    eapply (no_duplicates kf hash keq bc E kr ks kt Hh Hbc HE Hmax); eauto.
  Qed.
  Lemma kernels_srest s0 lss s : separate_kernels kf hash keq bc E s0 lss s -> srest kf hash bc E s0 -> distinct kf keq (content_of s0) -> srest kf hash bc E s /\ distinct kf keq (content_of s).
  Proof using HP.
    induction 1 as [s0|s0 lss s1 progs s2 ls HK IH Hsep HR Hq]; intros R0 D0; [auto|]. destruct (IH R0 D0) as [R1 D1]. apply reach_visited in HR as [past HV].
    destruct (sinv_visited kf hash keq bc E HP progs s1 R1 Hsep past s2 ls HV) as (h & I & _). split; [exact (sinv_rest kf hash keq bc E progs s1 R1 s2 ls h I Hq)|].
    exact (distinct_calls kf hash keq bc E HP _ _ _ D1 (s_run _ _ _ _ _ _ _ _ _ _ I)).
  Qed.
End kern.
