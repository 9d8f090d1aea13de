(** Completion of kernels on the unordered containers, from the containers that histories produce. *)
From Verif Require Import Base Conc SlotModel SlotSpec SlotProofs VectorModel VectorProofs VectorConcProofs HashProofs UnorderedModel UnorderedSpec UnorderedProofs UConcModel UConcSpec UConcProofs UConcReach UConcTop UEraseModel UEraseSpec UEraseProofs UEraseFinal UEraseTop UProgSpec UWalk.
From Verif Require UInsProg UErsProg.

Section top.
  Context {K V : Type} (kf : V -> K) (hash : K -> Z) (keq : K -> K -> bool) (opt : bool) (ord : nat -> list nat) (bc E : nat).
  Hypothesis Hk : key_equality keq.
  Hypothesis Hh : hash_respects keq hash.
  Hypothesis Ho : any_order ord.
  Hypothesis Hs : sizes_ok bc E.
  Context (fuel : nat).
  Hypothesis Hf : (2 <= fuel)%nat.
  Context (u : utab V) (progs : list (list (cop K V))) (s : cshared V) (ls : list (cthread K V)).

  Section ins.
    Hypothesis Hu : exists G st, urep kf hash keq opt bc E (replicate (bc + E) false) u G st.
    Hypothesis Hp : inserts_and_lookups progs.
    Hypothesis R : Conc.reach (ustep kf hash keq bc E) (shared_of u, c_start progs) (s, ls).
    Lemma ins_good : exists M0, UInsProg.good kf hash keq bc E M0 s ls.
    Proof using All.
      destruct (top_start kf hash keq opt ord bc E Hk Hh Ho Hs fuel Hf u Hu progs Hp) as (G & st & R0 & I0). exists (G ≫= gvals).
      destruct Hk as (kr & ks & kt), Hs as (Hbc & HE & Hmax).
      apply (UInsProg.good_reach kf hash keq bc E kr ks kt Hh Hbc HE Hmax _ _ _ s ls) with (2 := R).
      split; [exists G, st; exact I0|]. pose proof (ur_ex _ _ _ _ _ _ _ _ _ _ R0) as X. pose proof (r_le _ _ _ _ X) as L. cbn [shared_of c_ex q_c]. rewrite (r_n _ _ _ _ X). lia.
    Qed.
    Lemma ins_complete : exists s' ls', Conc.reach (ustep kf hash keq bc E) (s, ls) (s', ls') /\ all_returned ls'.
    Proof using All.
      destruct ins_good as (M0 & Hg). destruct Hk as (kr & ks & kt), Hs as (Hbc & HE & Hmax). exact (UInsProg.inserts_complete kf hash keq bc E kr ks kt Hh Hbc HE Hmax M0 s ls Hg).
    Qed.
    Lemma ins_alone i t op rest : ls !! i = Some t -> (forall j tj, ls !! j = Some tj -> j <> i -> c_pc tj = UIdle) -> c_prog t = op :: rest ->
      exists s' r, solo (ustep kf hash keq bc E) i (s, t) (s', cfinish t op r).
    Proof using All.
      intros Hi Hal Ep. destruct ins_good as (M0 & Hg). destruct Hk as (kr & ks & kt), Hs as (Hbc & HE & Hmax).
      destruct (UInsProg.alone_returns kf hash keq bc E kr ks kt Hh Hbc HE Hmax M0 s ls i t Hg Hi) as (s' & op' & r & rest' & Ep' & Hsolo).
      - intros j tj Hne Hj. exact (Hal j tj Hj Hne).
      - rewrite Ep. discriminate.
      - rewrite Ep in Ep'. injection Ep' as <- <-. exists s', r. exact Hsolo.
    Qed.
  End ins.

  Section ers.
    Hypothesis Hu : exists G st, urep kf hash keq true bc E (replicate (bc + E) false) u G st.
    Hypothesis Hp : erases_and_lookups progs.
    Hypothesis R : Conc.reach (estep kf hash keq bc E) (shared_of u, c_start progs) (s, ls).
    Lemma ers_good : exists G st, cinv (K:=K) kf hash keq bc E (G ≫= gvals) (shared_of u) [] G st /\ UErsProg.good kf hash keq bc E (shared_of u) G st s ls.
    Proof using All.
      destruct (etop_reach kf hash keq ord bc E Hk Hh Ho Hs fuel Hf u Hu progs Hp (s, ls) R) as (G & st & Gn & F & R0 & I0 & _ & J).
      exists G, st. split; [exact I0|]. exists Gn, F. exact J.
    Qed.
    Lemma ers_complete : exists s' ls', Conc.reach (estep kf hash keq bc E) (s, ls) (s', ls') /\ all_returned ls'.
    Proof using All.
      destruct ers_good as (G & st & I0 & Hg). destruct Hk as (kr & ks & kt), Hs as (Hbc & HE & Hmax).
      exact (UErsProg.erases_complete kf hash keq bc E kr ks kt Hh Hbc HE Hmax _ _ G st I0 s ls Hg).
    Qed.
    Lemma ers_alone i t op rest : ls !! i = Some t -> (forall j tj, ls !! j = Some tj -> j <> i -> c_pc tj = UIdle) -> c_prog t = op :: rest ->
      exists s' r, solo (estep kf hash keq bc E) i (s, t) (s', cfinish t op r).
    Proof using All.
      intros Hi Hal Ep. destruct ers_good as (G & st & I0 & Hg). destruct Hk as (kr & ks & kt), Hs as (Hbc & HE & Hmax).
      destruct (UErsProg.alone_returns kf hash keq bc E kr ks kt Hh Hbc HE Hmax _ _ G st I0 s ls i t Hg Hi) as (s' & op' & r & rest' & Ep' & Hsolo).
      - intros j tj Hne Hj. exact (Hal j tj Hj Hne).
      - rewrite Ep. discriminate.
      - rewrite Ep in Ep'. injection Ep' as <- <-. exists s', r. exact Hsolo.
    Qed.
  End ers.
End top.
