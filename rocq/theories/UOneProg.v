(** Kernels with one erasing thread and any number of inserting threads can always complete (C65). *)
From Verif Require Import Base Conc SlotModel SlotSpec SlotProofs VectorModel VectorProofs VectorConcProofs UnorderedModel UnorderedSpec UnorderedProofs UConcModel UConcSpec UConcProofs UConcEnd UConcReach UEraseModel UEraseSpec UEraseProofs UMixVec UMixShape UOneVec UOneDefs UOneUpd UOneStep UOneLink UOneMain UOneSpec UOneTop UProgSpec UWalk.
From Verif Require UMixKnow.

Section prog.
  Context {K V : Type} (kf : V -> K) (hash : K -> Z) (keq : K -> K -> bool) (bc E : nat).
  Hypothesis HP : key_equality keq /\ hash_respects keq hash /\ sizes_ok bc E.
  Context (ie : nat) (M0 : list V).
  Notation n := (bc + E)%nat.
  Notation bkt := (bkt hash bc).
  Notation oinv := (oinv kf hash keq bc E ie M0).
  Notation heldt := (heldt kf hash bc).
  Notation kn := (kn kf hash keq bc E).
  Notation step := (estep kf hash keq bc E).
  Notation solo := (solo step).
  Notation at_call := (at_call kf hash bc).
  Notation FL f := (f kf hash keq bc E ie M0).
  Implicit Types (s : cshared V) (t : cthread K V) (ls : list (cthread K V)) (C : list (list nat)) (F X : list nat) (R : list V) (op : cop K V).
  Let Eb k : bucket_of hash bc k = Some (bkt k). Proof using HP. apply (mx_bucket hash keq bc E HP). Qed.
  Let Hb k : (bkt k < bc)%nat. Proof using HP. apply (mx_bkt hash keq bc E HP). Qed.
  Let Hst : forall i s t, no_destroy (c_pc t) -> step i s t = ustep kf hash keq bc E i s t.
  Proof. intros i s t H. unfold estep. destruct (c_pc t); try reflexivity; destruct H. Qed.

  (** *** the chain of offsets from an entry ends *)
  Inductive fin s : nat -> Prop :=
  | FinEnd x : c_off s !! x = Some 0 -> fin s x
  | FinNext x z j : c_off s !! x = Some z -> z <> 0 -> next_entry x z = Some j -> fin s j -> fin s x.
  Lemma fin_ext s s' x : c_off s' = c_off s -> fin s x -> fin s' x.
  Proof. intros H. induction 1 as [x H1|x z j H1 H2 H3 _ IH]; [apply FinEnd|eapply FinNext]; rewrite ?H; eauto. Qed.
  Lemma fin_put s s' a z : c_off s' = <[a := z]> (c_off s) ->
    (z = 0 \/ (exists j, next_entry a z = Some j /\ j <> a /\ c_off s !! j = Some 0) \/
     (exists p po qo, c_off s !! a = Some qo /\ qo <> 0 /\ next_entry a qo = Some p /\ p <> a /\ c_off s !! p = Some po /\ z = unlink_offset po qo)) ->
    forall x, fin s x -> fin s' x.
  Proof.
    intros Es Hz x Hx. induction Hx as [x H1|x o j H1 H2 H3 Hj IH]; (destruct (decide (x = a)) as [-> |Hne];
      [assert (Ha : c_off s' !! a = Some z) by (rewrite Es; apply list_lookup_insert; eapply lookup_lt_Some; exact H1)|assert (Ha : c_off s' !! x = c_off s !! x) by (rewrite Es; apply list_lookup_insert_ne; congruence)]).
    - destruct Hz as [-> |[(j & Hn & Hja & Hj)|(p & po & qo & Hq & Hqn & _)]]; [apply FinEnd; exact Ha| |congruence].
      destruct (decide (z = 0)) as [-> |Hzn]; [apply FinEnd; exact Ha|]. eapply FinNext; [exact Ha|exact Hzn|exact Hn|]. apply FinEnd. rewrite Es, list_lookup_insert_ne by congruence. exact Hj.
    - apply FinEnd. congruence.
    - destruct (decide (z = 0)) as [-> |Hzn]; [apply FinEnd; exact Ha|]. destruct Hz as [-> |[(j' & Hn & Hja & Hj')|(p & po & qo & Hq & Hqn & Hp & Hpa & Hpo & Ez)]]; [congruence| |].
      + eapply FinNext; [exact Ha|exact Hzn|exact Hn|]. apply FinEnd. rewrite Es, list_lookup_insert_ne by congruence. exact Hj'.
      + assert (qo = o) as -> by congruence. assert (p = j) as -> by congruence. assert (Hpo' : c_off s' !! j = Some po) by (rewrite Es, list_lookup_insert_ne by congruence; exact Hpo).
        unfold unlink_offset in Ez. destruct (po =? 0) eqn:Ep0; [congruence|]. inversion IH as [y E1|y z' j' E1 E2 E3 E4]; subst y; rewrite Hpo' in E1; [assert (po = 0) by congruence; lia|]. injection E1 as <-.
        apply (FinNext s' a z j'); [exact Ha|exact Hzn| |exact E4]. rewrite <- E3. unfold next_entry in *. destruct (0 <=? Z.of_nat a + o) eqn:G1; [|discriminate]. injection Hp as <-. subst z.
        replace (Z.of_nat (Z.to_nat (Z.of_nat a + o)) + po) with (Z.of_nat a + (o + po)) by lia. reflexivity.
    - eapply FinNext; [rewrite Ha; exact H1|exact H2|exact H3|exact IH].
  Qed.
  Lemma fin_linked s p P : linked (c_off s) p P -> fin s p.
  Proof.
    revert p. induction P as [|q P IH]; intros p HL; [apply FinEnd; exact HL|]. destruct HL as (H1 & H2 & H3). eapply FinNext; [exact H2|lia| |apply IH; exact H3]. unfold next_entry. rewrite (proj2 (Z.leb_le _ _)) by lia. f_equal. lia.
  Qed.
  Lemma fin_bucket s ls C F X R c : oinv s ls C F X R -> (c < bc)%nat -> fin s c.
  Proof. intros I Hc. eapply fin_linked. exact (o_link _ _ _ _ _ _ _ _ _ _ _ _ _ I c Hc). Qed.
  Lemma fin_step s ls C F X R i t s' t' : oinv s ls C F X R -> ls !! i = Some t -> step i s t = Some (s', t') -> forall x, fin s x -> fin s' x.
  Proof using HP.
    intros I Hi Hs. destruct (c_prog t) as [|op rest0] eqn:Ep; [unfold estep, ustep in Hs; rewrite Ep in Hs; destruct (c_pc t); discriminate|].
    pose proof (FL s_kn s ls C F X R i t op rest0 I Hi Ep) as Hk. pose proof (FL f_hand s ls C F X R I i t) as Hh. unfold handt in Hh. unfold estep, ustep in Hs. rewrite Ep, Eb in Hs.
    destruct (c_pc t) as [| | |c j|c j|c j|c j|c j|c j|c j pr|c j pr| | | | | | |r|e|e q|e p|e p|e p|e p|e p|e r|p|p|p|p|p ok|p q|p q|p|p q|p q|p q o|p q o|p q|p q|p q|p q x|p q ok|q ok] eqn:Epc; cbn [hand UOneDefs.kn] in Hh, Hk;
      try (repeat case_match; try discriminate; injection Hs as <- <-; intros x0 Hx0; (eapply fin_ext; [|exact Hx0]; reflexivity)).
    - destruct (c_off s !! p) eqn:Ho; [|discriminate]. injection Hs as <- <-. apply (fin_put s _ p 0); [reflexivity|left; reflexivity].
    - destruct (c_off s !! e) eqn:Ho; [|discriminate]. injection Hs as <- <-. destruct Hk as (_ & (He0 & Hec) & _ & Hp0). destruct (Hh p Hi ltac:(left)) as (_ & Hnp & _).
      assert (Hne : p <> e) by (intros ->; contradiction). apply (fin_put s _ e (Z.of_nat p - Z.of_nat e)); [reflexivity|]. right; left. exists p. split; [|auto]. unfold next_entry. rewrite (proj2 (Z.leb_le _ _)) by lia. f_equal. lia.
    - destruct (c_off s !! q) eqn:Ho; [|discriminate]. injection Hs as <- <-. destruct Hk as (_ & Hbef & _ & po & qo & Hpo & Hqo & ->).
      apply (fin_put s _ q (unlink_offset po qo)); [reflexivity|]. right; right. destruct Hbef as (P1 & P2 & EC & ->). pose proof (o_link _ _ _ _ _ _ _ _ _ _ _ _ _ I _ (Hb (op_key kf op))) as HL. rewrite EC in HL. apply linked_split in HL. destruct HL as (H1 & H2 & _).
      exists p, po, qo. split; [congruence|]. assert (qo = Z.of_nat p - Z.of_nat (lend (bkt (op_key kf op)) P1)) as -> by congruence. split; [lia|]. split; [|split; [congruence|auto]]. unfold next_entry. rewrite (proj2 (Z.leb_le _ _)) by lia. f_equal. lia.
  Qed.

  (** *** the walks in progress end *)
  Definition pos (pc : upc) : option nat := match pc with FOcc _ x | FVal _ x | FOff _ x | FAdd _ x | EOff _ x | EAdd _ x | POff _ x _ | PAdd _ x _ => Some x | _ => None end.
  Definition posfin s ls : Prop := forall i t x, ls !! i = Some t -> pos (c_pc t) = Some x -> fin s x.
  Lemma fin_next s x z j : fin s x -> c_off s !! x = Some z -> next_entry x z = Some j -> fin s j.
  Proof.
    intros Hx Hz Hn. pose proof Hx as Hx0. destruct Hx as [x H1|x z' j' H1 H2 H3 H4].
    - assert (z = 0) as -> by congruence. rewrite next_self in Hn. injection Hn as <-. exact Hx0.
    - assert (z' = z) as -> by congruence. assert (j' = j) as -> by congruence. exact H4.
  Qed.
  Lemma pos_step s ls C F X R i t s' t' C' F' X' R' x : oinv s ls C F X R -> ls !! i = Some t -> step i s t = Some (s', t') -> oinv s' (<[i := t']> ls) C' F' X' R' ->
    (forall y, pos (c_pc t) = Some y -> fin s y) -> pos (c_pc t') = Some x -> fin s' x.
  Proof using HP.
    intros I Hi Hs I' Hf Hx. destruct (c_prog t) as [|op rest0] eqn:Ep; [unfold estep, ustep in Hs; rewrite Ep in Hs; destruct (c_pc t); discriminate|].
    pose proof (fin_bucket s' _ C' F' X' R' (bkt (op_key kf op)) I' (Hb _)) as Hbf. unfold estep, ustep in Hs. rewrite Ep, Eb in Hs.
    destruct (c_pc t) as [| | |c j|c j|c j|c j|c j|c j|c j pr|c j pr| | | | | | |r|e|e q|e p|e p|e p|e p|e p|e r|p|p|p|p|p ok|p q|p q|p|p q|p q|p q o|p q o|p q|p q|p q|p q x0|p q ok|q ok] eqn:Epc; cbn [pos] in Hf;
      try (pose proof (Hf _ eq_refl) as Hj); try (destruct c); destruct op;
      repeat case_match; try discriminate; injection Hs as <- <-; unfold after_find, after_end, after_prev, again in Hx; repeat (case_match; try discriminate); cbn [cgo cfinish c_pc pos] in Hx; try discriminate;
      injection Hx as <-; try exact Hbf; try exact Hj; try (eapply fin_next; eassumption).
  Qed.

  Definition good s ls : Prop := (exists C F X R, oinv s ls C F X R) /\ posfin s ls.
  Lemma good_step s ls i t : good s ls -> ls !! i = Some t -> c_prog t <> [] -> exists s' t', step i s t = Some (s', t') /\ good s' (<[i := t']> ls).
  Proof using HP.
    intros [(C & F & X & R & I) Hp] Hi Hne. destruct (oinv_step kf hash keq bc E HP ie M0 _ _ _ _ _ _ i t I Hi Hne) as (s' & t' & Hs & C' & F' & X' & R' & I'). exists s', t'. split; [exact Hs|]. split; [exists C', F', X', R'; exact I'|].
    intros j tj x Hj Hx. apply list_lookup_insert_Some in Hj as [(<- & <- & _)|[Hnj Hj]].
    - eapply (pos_step s ls C F X R i t s' t'); eauto.
    - eapply (fin_step s ls C F X R i t s' t'); eauto.
  Qed.
  Lemma good_idle s ls i t : good s ls -> ls !! i = Some t -> c_prog t = [] -> c_pc t = UIdle.
  Proof. intros [(C & F & X & R & I) _] Hi Ep. destruct (o_thr _ _ _ _ _ _ _ _ _ _ _ _ _ I i t Hi) as [_ T]. rewrite Ep in T. exact T. Qed.
  Lemma good_reach s ls s' ls' : good s ls -> Conc.reach step (s, ls) (s', ls') -> good s' ls'.
  Proof using HP.
    intros H R. pose (P := fun c : cshared V * list (cthread K V) => good c.1 c.2).
    assert (H' : P (s', ls')); [|exact H']. refine (invariant step P _ (s, ls) (s', ls') H R).
    intros c c' Hc Hcs. destruct Hcs as [s1 ls1 i t s2 t2 Hi Hs]. unfold P in *. cbn [fst snd] in *.
    destruct (c_prog t) as [|op rest0] eqn:Ep; [unfold estep, ustep in Hs; rewrite (good_idle s1 ls1 i t Hc Hi Ep), Ep in Hs; discriminate|].
    destruct (good_step s1 ls1 i t Hc Hi ltac:(congruence)) as (s3 & t3 & E3 & G3). rewrite Hs in E3. injection E3 as <- <-. exact G3.
  Qed.
  Lemma fin_walkable s ls x : good s ls -> fin s x -> walkable s x.
  Proof using HP.
    intros [(C & F & X & R & I) _]. induction 1 as [x H1|x z j H1 H2 H3 _ IH].
    - assert (Hx : (x < n)%nat) by (apply lookup_lt_Some in H1; destruct (o_len _ _ _ _ _ _ _ _ _ _ _ _ _ I) as (_ & L & _); lia). destruct (FL f_occ s ls C F X R I x Hx) as [o Ho]. eapply WEnd; [exact Ho| |exact H1]. intros ->. exact (o_val _ _ _ _ _ _ _ _ _ _ _ _ _ I x Ho).
    - assert (Hx : (x < n)%nat) by (apply lookup_lt_Some in H1; destruct (o_len _ _ _ _ _ _ _ _ _ _ _ _ _ I) as (_ & L & _); lia). destruct (FL f_occ s ls C F X R I x Hx) as [o Ho]. eapply WNext; [exact Ho| |exact H1|exact H2|exact H3|exact IH]. intros ->. exact (o_val _ _ _ _ _ _ _ _ _ _ _ _ _ I x Ho).
  Qed.
  Lemma pos_walkable s ls i t x : good s ls -> ls !! i = Some t -> pos (c_pc t) = Some x -> walkable s x.
  Proof using HP. intros Hg Hi Hx. apply (fin_walkable s ls x Hg). destruct Hg as [_ Hp]. eapply Hp; eauto. Qed.
  Lemma bucket_walkable s ls k : good s ls -> walkable s (bkt k).
  Proof using HP. intros Hg. apply (fin_walkable s ls _ Hg). destruct Hg as [(C & F & X & R & I) _]. eapply fin_bucket; eauto. Qed.
End prog.
