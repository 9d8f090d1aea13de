(** C63: unordered_map / unordered_set used in phases. *)
From Verif Require Import Base Conc SlotModel SlotSpec VectorModel UnorderedModel UnorderedSpec UConcModel UConcSpec UConcProps UEraseModel UEraseSpec UEraseProps UHistSpec UHistProofs.

(** ** C63: for every history of phases - calls of one caller, kernels that insert and look up (with enough free excess entries), kernels that
    erase and look up, in any number, order and interleaving - there is a content that explains every result ([spec_phases], UHistSpec.v),
    the container stores exactly it, and valid() returns true; the next calls of one caller are defined. *)
Theorem C63_history_explained : forall (K V : Type) (kf : V -> K) hash keq ord buckets excess fuel H (u : utab V),
  key_equality keq -> hash_respects keq hash -> any_order ord -> sizes_ok buckets excess -> (2 <= fuel)%nat ->
  history kf hash keq ord fuel buckets excess H u ->
  exists M (bucket : K -> Z), (forall k, u_bucket hash u k = Ret (bucket k)) /\ spec_phases kf keq buckets excess bucket [] H M /\
    content kf keq (shared_of u) M /\ u_valid kf hash keq ord u = Ret true.
Proof. intros * Hk Hh Ho Hs Hf HH. eapply history_good; eassumption. Qed.
Theorem C63_next_calls_defined : forall (K V : Type) (kf : V -> K) hash keq ord buckets excess fuel H (u : utab V) (ops : list (uop K V)),
  key_equality keq -> hash_respects keq hash -> any_order ord -> sizes_ok buckets excess -> (2 <= fuel)%nat ->
  history kf hash keq ord fuel buckets excess H u -> Forall (uop_ok (Z.of_nat buckets)) ops ->
  exists u' rs, u_run kf hash keq true ord fuel u ops = Ret (u', rs).
Proof. intros * Hk Hh Ho Hs Hf HH Hops. eapply history_calls; eassumption. Qed.
Print Assumptions C63_history_explained.
Print Assumptions C63_next_calls_defined.

(** a history with every kind of phase: insert 1, 100; a kernel of two inserts of 2 and one of 3; a kernel of two erases of 2 and a find of 3; then
    calls of one caller *)
Definition hex_first : list (list (cop Z Z)) := [[CInsert 2]; [CInsert 2]; [CInsert 3]].
Definition hex_second : list (list (cop Z Z)) := [[CErase 2]; [CErase 2]; [CFind 3]].
Definition hex_hist := history (V:=Z) (fun v => v) uex_hash Z.eqb (fun n => seq 0 n) 2 2 4.
Example C63_ex : exists ls1 ls2 u,
  hex_hist [Calls [UInsert 1; UInsert 100] [UIns true (Some 1); UIns true (Some 100)]; InsertKernel hex_first ls1; EraseKernel hex_second ls2; Calls [UValid; USize; UContains 2; UContains 3] [UBool true; UNum 3; UBool false; UBool true]] u /\
  c_log <$> ls1 = [[(CInsert 2, RInserted 5)]; [(CInsert 2, RNotInserted)]; [(CInsert 3, RInserted 4)]] /\
  c_log <$> ls2 = [[(CErase 2, RErased true)]; [(CErase 2, RErased false)]; [(CFind 3, RFound (Some 4%nat))]].
Proof.
  assert (Hret : forall (a b c : cthread Z Z), c_prog a = [] /\ c_pc a = UIdle -> c_prog b = [] /\ c_pc b = UIdle -> c_prog c = [] /\ c_pc c = UIdle -> all_returned [a; b; c]).
  { intros a b c Ha Hb Hc t Ht. repeat (apply elem_of_cons in Ht as [-> |Ht]; [assumption|]). inversion Ht. }
  assert (H1 : inserts_and_lookups hex_first).
  { intros prog op H1 H2. repeat (apply elem_of_cons in H1 as [-> |H1]; [repeat (apply elem_of_cons in H2 as [-> |H2]; [exact I|]); inversion H2|]); inversion H1. }
  assert (H2 : erases_and_lookups hex_second).
  { intros prog op H2 H3. repeat (apply elem_of_cons in H2 as [-> |H2]; [repeat (apply elem_of_cons in H3 as [-> |H3]; [exact I|]); inversion H3|]); inversion H2. }
  eexists _, _, _. split.
  - unfold hex_hist. eapply (then_phase _ _ _ _ _ _ _ [Calls _ _; InsertKernel _ _; EraseKernel _ _]).
    + eapply (then_phase _ _ _ _ _ _ _ [Calls _ _; InsertKernel _ _]).
      * eapply (then_phase _ _ _ _ _ _ _ [Calls _ _]).
        -- eapply (then_phase _ _ _ _ _ _ _ []); [eapply (created _ _ _ _ _ _ _ []); vm_compute; reflexivity|]. eapply run_calls; [repeat constructor|vm_compute; reflexivity].
        -- eapply run_inserts; [exact H1|vm_compute; discriminate|apply (run_reach _ (replicate 8 1%nat ++ replicate 8 2%nat ++ replicate 28 0%nat ++ replicate 19 1%nat ++ replicate 51 2%nat)); vm_compute; reflexivity|].
           apply Hret; split; reflexivity.
      * eapply run_erases; [exact H2|apply (run_reach _ (replicate 7 2%nat ++ replicate 7 1%nat ++ replicate 25 0%nat ++ replicate 3 1%nat ++ replicate 11 0%nat ++ replicate 21 1%nat ++ replicate 4 2%nat)); vm_compute; reflexivity|].
        apply Hret; split; reflexivity.
    + eapply run_calls; [repeat constructor|vm_compute; reflexivity].
  - split; vm_compute; reflexivity.
Qed.
