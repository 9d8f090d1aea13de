(** A stored key that no erase concerns: from a container produced by a history, over any number of kernels (C80). *)
From Verif Require Import Base Conc SlotModel SlotSpec SlotProofs VectorModel VectorProofs UnorderedModel UnorderedSpec UnorderedProofs UConcModel UConcSpec UEraseModel UEraseTop UMixShape UOneDefs UAnyDefs UAnySpec UAnyStep UAnyTop UKeepSpec UKeepProofs.

Section top.
  Context {K V : Type} (kf : V -> K) (hash : K -> Z) (keq : K -> K -> bool) (bc E : nat).
  Hypothesis HP : key_equality keq /\ hash_respects keq hash /\ sizes_ok bc E.
  Notation n := (bc + E)%nat.
  Notation bkt := (bkt hash bc).
  Notation ainv M0 := (ainv kf hash keq bc E M0).
  Implicit Types (s : cshared V) (t : cthread K V) (ls : list (cthread K V)).
  Local Notation step tr := (kernel_step kf hash keq bc E tr).
  Local Notation PL f I := (f kf hash keq bc E _ _ _ _ _ I) (only parsing).

  Section key.
  Context (k : K) (v0 : V) (p : nat) (path : list nat).
  Hypothesis HPath : keep_path kf hash keq bc k (bkt k) v0 p path.
  Notation kept := (kept kf hash keq bc k (bkt k) v0 p path).
  Notation keeps := (keeps kf hash keq bc k (bkt k) p path).

  Definition kinv s ls : Prop := kept s /\ (forall t, t ∈ ls -> keeps s t) /\ exists M0 F P, ainv M0 s ls F P.
  Lemma kinv_step tr s ls i t s' t' : kinv s ls -> ls !! i = Some t -> step tr i s t = Some (s', t') -> kinv s' (<[i := t']> ls).
  Proof using HP HPath.
    intros (Q & T & M0 & F & P & I) Hi Hst. assert (Ti : keeps s t) by (apply T; eapply elem_of_list_lookup_2; exact Hi). destruct (c_prog t) as [|op rest] eqn:Ep.
    { exfalso. pose proof (PL a_thr I i t Hi) as H. unfold athr in H. rewrite Ep in H. unfold kernel_step in Hst. destruct tr; unfold estep, ustep in Hst; rewrite ?H, Ep in Hst; discriminate. }
    assert (HG : fine kf hash keq bc k (bkt k) v0 p path s s' /\ keeps s' t').
    { unfold kernel_step in Hst. destruct tr; [exact (keep_estep kf hash keq bc E HP k _ v0 p path HPath M0 s ls F P i t op rest I Hi Ep Q Ti s' t' Hst)|exact (keep_ustep kf hash keq bc E HP k _ v0 p path HPath M0 s ls F P i t op rest I Hi Ep Q Ti s' t' Hst)]. }
    assert (HA : exists F' P', ainv M0 s' (<[i := t']> ls) F' P') by (unfold kernel_step in Hst; destruct tr; [exact (aestep_at kf hash keq bc E HP M0 s ls F P i t op rest I Hi Ep s' t' Hst)|exact (astep_at kf hash keq bc E HP M0 s ls F P i t op rest I Hi Ep s' t' Hst)]).
    destruct HG as [[Q' Hm] T']. destruct HA as (F' & P' & I'). split; [exact Q'|]. split; [|exists M0, F', P'; exact I'].
    intros u Hu. apply elem_of_list_lookup in Hu as [j Hj]. apply list_lookup_insert_Some in Hj as [(_ & <- & _)|[_ Hj]]; [exact T'|]. eapply keeps_mono; [exact Hm|]. apply T. eapply elem_of_list_lookup_2; exact Hj.
  Qed.
  Lemma kinv_reach tr s ls s' ls' : kinv s ls -> Conc.reach (step tr) (s, ls) (s', ls') -> kinv s' ls'.
  Proof using HP HPath.
    intros I HR. refine (invariant (step tr) (fun c => kinv c.1 c.2) _ (s, ls) (s', ls') I HR). intros c c' Hc Hcs. destruct Hcs as [s1 ls1 i t s2 t2 Hi Hst]. cbn [fst snd] in *. eapply kinv_step; eauto.
  Qed.
  Lemma kinv_start s progs : kept s -> arest kf hash bc E s -> spares hash keq bc k p progs -> kinv s (c_start progs).
  Proof using HP.
    intros Q R Hsp. split; [exact Q|]. split; [|destruct (arest_start kf hash keq bc E s progs R) as (F & I); eauto].
    intros t Ht. apply elem_of_list_fmap in Ht as (prog & -> & Hprog). split; cbn [c_prog c_log c_pc].
    - apply Forall_forall. intros op Hop. destruct op as [v|k'|k']; cbn [ok_op]; auto. destruct (Hsp prog k' Hprog Hop) as [H|[H1 H2]]; rewrite !(mx_bucket hash keq bc E HP) in *; [left; congruence|right; split; [congruence|exact H2]].
    - constructor.
    - exact Logic.I.
    - intros; exact Logic.I.
  Qed.
  Lemma kinv_sees s ls : kinv s ls -> sees_key kf keq k p ls.
  Proof using. intros (_ & T & _) t x Ht Hx. pose proof (kt_log _ _ _ _ _ _ _ _ _ _ (T t Ht)) as H. rewrite Forall_forall in H. exact (H x Hx). Qed.
  Lemma kinv_rest s ls : kinv s ls -> c_quiescent ls -> kept s /\ arest kf hash bc E s.
  Proof using. intros (Q & _ & M0 & F & P & I) Hq. split; [exact Q|]. eapply ainv_rest; eauto. Qed.
  Lemma kernels_kept tr s0 lss s : kept s0 -> arest kf hash bc E s0 -> sparing_kernels kf hash keq bc E tr k p s0 lss s -> kept s /\ arest kf hash bc E s /\ forall ls, ls ∈ lss -> sees_key kf keq k p ls.
  Proof using HP HPath.
    intros Q0 R0 HK. induction HK as [s|s lss s1 progs s2 ls HK IH Hsp HR Hq]; [split; [exact Q0|]; split; [exact R0|]; intros ls H; inversion H|].
    destruct (IH Q0 R0) as (Q1 & R1 & H1). pose proof (kinv_reach tr _ _ _ _ (kinv_start s1 progs Q1 R1 Hsp) HR) as I. destruct (kinv_rest _ _ I Hq) as [Q2 R2]. split; [exact Q2|]. split; [exact R2|].
    intros l Hl. apply elem_of_app in Hl as [Hl|Hl]; [auto|]. apply elem_of_list_singleton in Hl as ->. eapply kinv_sees; exact I.
  Qed.
  Lemma kinv_defined tr s ls i t k' rest : kinv s ls -> ls !! i = Some t -> c_prog t = CFind k' :: rest -> keq k' k = true -> step tr i s t <> None.
  Proof using HP HPath.
    intros (Q & T & M0 & F & P & I) Hi Ep Hk. assert (Ti : keeps s t) by (apply T; eapply elem_of_list_lookup_2; exact Hi).
    pose proof (keep_defined kf hash keq bc E HP k _ v0 p path HPath M0 s ls F P i t _ rest I Hi Ep Q Ti Hk (ex_intro _ _ eq_refl)) as H. destruct tr; [|exact H]. unfold kernel_step, estep.
    pose proof (kt_kw _ _ _ _ _ _ _ _ _ _ Ti _ rest Ep Hk) as Hw. destruct (c_pc t); try exact H; destruct Hw.
  Qed.

  (** *** a lookup of the key takes at most four accesses per entry before it *)
  Fixpoint upto (l : list nat) (x : nat) : nat := match l with [] => 0%nat | y :: l' => if decide (y = x) then length l else upto l' x end.
  Lemma upto_in l x j : NoDup l -> l !! j = Some x -> (upto l x + j = length l)%nat.
  Proof using.
    revert j. induction l as [|y l IH]; intros j ND Hj; [discriminate|]. apply NoDup_cons in ND as [N1 N2]. cbn [upto]. destruct j as [|j]; cbn in Hj.
    - injection Hj as ->. rewrite decide_True by reflexivity. lia.
    - rewrite decide_False by (intros ->; apply N1; eapply elem_of_list_lookup_2; exact Hj). cbn. specialize (IH j N2 Hj). lia.
  Qed.
  Definition frank (pc : upc) : nat := match pc with
    | FOcc _ x => 4 * upto path x | FVal _ x => 4 * upto path x - 1 | FOff _ x => 4 * upto path x - 2 | FAdd _ x => 4 * upto path x - 3 | _ => 4 * length path + 1 end.
  Lemma frank_step tr s ls i t s' t' k' rest : kinv s ls -> ls !! i = Some t -> c_prog t = CFind k' :: rest -> keq k' k = true -> step tr i s t = Some (s', t') ->
    (c_prog t' = CFind k' :: rest /\ c_log t' = c_log t /\ (frank (c_pc t') < frank (c_pc t))%nat) \/ (length (c_log t) < length (c_log t'))%nat.
  Proof using HP HPath.
    intros (Q & T & M0 & F & P & I) Hi Ep Hk Hst. assert (Ti : keeps s t) by (apply T; eapply elem_of_list_lookup_2; exact Hi).
    pose proof (kt_kw _ _ _ _ _ _ _ _ _ _ Ti _ rest Ep Hk) as Hw. assert (Hst' : ustep kf hash keq bc E i s t = Some (s', t')) by (destruct tr; [|exact Hst]; unfold kernel_step, estep in Hst; destruct (c_pc t); try exact Hst; destruct Hw). clear Hst.
    pose proof (PL a_thr I i t Hi) as Hkn. unfold athr in Hkn. rewrite Ep in Hkn.
    assert (Hpos : forall x, x ∈ path -> (0 < upto path x)%nat). { intros x Hx. apply elem_of_list_lookup in Hx as [j Hj]. pose proof (upto_in _ _ _ (kp_nodup _ _ _ _ _ _ _ _ _ HPath) Hj). apply lookup_lt_Some in Hj. lia. }
    unfold ustep in Hst'. rewrite Ep, (mx_bucket hash keq bc E HP) in Hst'. cbn [op_key] in Hst'.
    assert (Ebk : bkt k' = bkt k) by exact (mx_keq hash keq bc E HP _ _ Hk).
    assert (Hhd : upto path (bkt k) = length path) by (pose proof (upto_in _ _ _ (kp_nodup _ _ _ _ _ _ _ _ _ HPath) (kp_hd _ _ _ _ _ _ _ _ _ HPath)); lia).
    assert (Hin : forall x, inner path x -> x ∈ path) by (intros x (j & y & Hj & _); eapply elem_of_list_lookup_2; exact Hj).
    destruct (c_pc t) as [| | |c x|c x|c x|c x| | | | | | | | | | | | | | | | | | | | | | | | | | | | | | | | | | | | |] eqn:Epc; cbn [kw UAnyDefs.akn] in Hw, Hkn; try contradiction.
    - injection Hst' as <- <-. left. cbn [cgo c_prog c_log c_pc frank]. rewrite Ebk, Hhd. split; [exact Ep|]. split; [reflexivity|lia].
    - destruct Hw as [Hc Hx]. specialize (Hpos x Hx). destruct (c_occ s !! x) as [o|]; [|discriminate]. injection Hst' as <- <-. left. cbn [cgo c_prog c_log c_pc]. split; [exact Ep|]. split; [reflexivity|]. destruct o; cbn [frank]; lia.
    - destruct Hw as (Hc & Hx & _). specialize (Hpos x Hx). destruct (c_values s !! x) as [[v|]|]; try discriminate. injection Hst' as <- <-. destruct (keq (kf v) k').
      + right. destruct Hc as [-> | ->]; [|exfalso; apply Hkn]. cbn [after_find cfinish c_log]. rewrite app_length. cbn. lia.
      + left. cbn [cgo c_prog c_log c_pc frank]. split; [exact Ep|]. split; [reflexivity|lia].
    - destruct Hw as (Hc & Hx). specialize (Hpos x (Hin x Hx)). destruct (inner_off kf hash keq bc k _ v0 p path HPath s x Q Hx) as (y & Hy & Hne & _). rewrite Hy in Hst'. rewrite (proj2 (Z.eqb_neq _ _)) in Hst' by lia. injection Hst' as <- <-.
      left. cbn [cgo c_prog c_log c_pc frank]. split; [exact Ep|]. split; [reflexivity|lia].
    - destruct Hw as (Hc & Hx). specialize (Hpos x (Hin x Hx)). destruct Hx as (j & y & Hj & Hyj). rewrite (q_link _ _ _ _ _ _ _ _ _ _ Q j x y Hj Hyj) in Hst'. unfold next_entry in Hst'. rewrite (proj2 (Z.leb_le _ _)) in Hst' by lia. injection Hst' as <- <-.
      replace (Z.of_nat x + (Z.of_nat y - Z.of_nat x)) with (Z.of_nat y) by lia. rewrite Nat2Z.id. left. cbn [cgo c_prog c_log c_pc frank]. split; [exact Ep|]. split; [reflexivity|].
      pose proof (upto_in _ _ _ (kp_nodup _ _ _ _ _ _ _ _ _ HPath) Hj). pose proof (upto_in _ _ _ (kp_nodup _ _ _ _ _ _ _ _ _ HPath) Hyj). lia.
  Qed.
  Lemma logs_mono tr i s t s' t' : step tr i s t = Some (s', t') -> (length (c_log t) <= length (c_log t'))%nat.
  Proof using.
    intros H. assert (HL : logs_calls (step tr)) by (destruct tr; [apply estep_logs|apply ustep_logs]). destruct (HL i s t s' t' H) as [[_ ->]|(op & r & x & _ & _ & _ & ->)]; [lia|rewrite app_length; lia].
  Qed.
  Lemma run_logs tr sched s ls s' ls' i t : run (step tr) sched (s, ls) = Some (s', ls') -> ls !! i = Some t -> exists t', ls' !! i = Some t' /\ (length (c_log t) <= length (c_log t'))%nat.
  Proof using.
    revert s ls t. induction sched as [|j sched IH]; intros s ls t HR Hi; cbn in HR; [injection HR as <- <-; eauto|].
    destruct (ls !! j) as [u|] eqn:Hj; [|discriminate]. destruct (step tr j s u) as [[s1 u1]|] eqn:Hst; [|discriminate]. destruct (decide (j = i)) as [<- |Hne].
    - rewrite Hi in Hj. injection Hj as <-. destruct (IH _ _ u1 HR) as (t' & H1 & H2); [apply list_lookup_insert; eapply lookup_lt_Some; exact Hi|]. exists t'. split; [exact H1|]. pose proof (logs_mono _ _ _ _ _ _ Hst). lia.
    - apply (IH _ _ t HR). rewrite list_lookup_insert_ne by exact Hne. exact Hi.
  Qed.
  Lemma kinv_finishes tr sched s ls s' ls' i t k' rest : kinv s ls -> run (step tr) sched (s, ls) = Some (s', ls') -> ls !! i = Some t -> c_prog t = CFind k' :: rest -> keq k' k = true -> (frank (c_pc t) <= turns i sched)%nat ->
    exists t', ls' !! i = Some t' /\ (length (c_log t) < length (c_log t'))%nat.
  Proof using HP HPath.
    revert s ls t. induction sched as [|j sched IH]; intros s ls t I HR Hi Ep Hk Ht; cbn in HR.
    { exfalso. cbn in Ht. destruct I as (Q & T & _). assert (Ti : keeps s t) by (apply T; eapply elem_of_list_lookup_2; exact Hi). pose proof (kt_kw _ _ _ _ _ _ _ _ _ _ Ti _ rest Ep Hk) as Hw.
      assert (Hpos : forall x, x ∈ path -> (0 < upto path x)%nat). { intros x Hx. apply elem_of_list_lookup in Hx as [j Hj]. pose proof (upto_in _ _ _ (kp_nodup _ _ _ _ _ _ _ _ _ HPath) Hj). apply lookup_lt_Some in Hj. lia. }
      assert (Hin : forall x, inner path x -> x ∈ path) by (intros x (j & y & Hj & _); eapply elem_of_list_lookup_2; exact Hj).
      destruct (c_pc t) as [| | |c x|c x|c x|c x| | | | | | | | | | | | | | | | | | | | | | | | | | | | | | | | | | | | |]; cbn [kw frank] in *; try lia; destruct Hw as [_ Hx]; try apply Hin in Hx; try destruct Hx as [Hx _]; specialize (Hpos x Hx); lia. }
    destruct (ls !! j) as [u|] eqn:Hj; [|discriminate]. destruct (step tr j s u) as [[s1 u1]|] eqn:Hst; [|discriminate]. pose proof (kinv_step tr _ _ _ _ _ _ I Hj Hst) as I1. unfold turns in *. rewrite filter_cons in Ht. destruct (decide (j = i)) as [<- |Hne].
    - rewrite Hi in Hj. injection Hj as <-. cbn [length] in Ht. assert (Hi1 : <[j := u1]> ls !! j = Some u1) by (apply list_lookup_insert; eapply lookup_lt_Some; exact Hi).
      destruct (frank_step tr s ls j t s1 u1 k' rest I Hi Ep Hk Hst) as [(H1 & H2 & H3)|H].
      + destruct (IH _ _ u1 I1 HR Hi1 H1 Hk) as (t' & H4 & H5); [lia|]. exists t'. rewrite H2 in H5. auto.
      + destruct (run_logs tr sched _ _ _ _ j u1 HR Hi1) as (t' & H4 & H5). exists t'. split; [exact H4|lia].
    - refine (IH _ _ t I1 HR _ Ep Hk _); [rewrite list_lookup_insert_ne by exact Hne; exact Hi|exact Ht].
  Qed.
  Lemma path_len s ls : kinv s ls -> (length path <= n)%nat.
  Proof using HP HPath.
    intros (Q & _ & M0 & F & P & I). assert (H : path ⊆+ seq 0 n).
    { apply NoDup_submseteq; [apply HPath|]. intros x Hx. apply elem_of_seq. split; [lia|]. destruct (in_prot kf hash keq bc k _ v0 p path HPath x Hx) as [-> |Hp]; [pose proof (mx_bkt hash keq bc E HP k); lia|].
      pose proof (q_occ _ _ _ _ _ _ _ _ _ _ Q x Hp) as Ho. apply lookup_lt_Some in Ho. destruct (PL a_len I) as (_ & H & _). lia. }
    apply submseteq_length in H. rewrite seq_length in H. exact H.
  Qed.
  End key.

  (** *** the container that a history produced *)
  Lemma linked_links off b l : linked off b l -> forall j x y, (b :: l) !! j = Some x -> (b :: l) !! S j = Some y -> off !! x = Some (Z.of_nat y - Z.of_nat x).
  Proof using.
    revert b. induction l as [|q l IH]; intros b HL j x y Hx Hy; [destruct j; discriminate|]. cbn [linked] in HL. destruct HL as (_ & H2 & H3). destruct j as [|j].
    - cbn in Hx, Hy. injection Hx as <-. injection Hy as <-. exact H2.
    - exact (IH q H3 j x y Hx Hy).
  Qed.
  Lemma keep_start (u : utab V) G st k p v : urep kf hash keq true bc E (replicate n false) u G st -> stored_at kf keq (shared_of u) k p v ->
    exists path, keep_path kf hash keq bc k (bkt k) v p path /\ kept kf hash keq bc k (bkt k) v p path (shared_of u).
  Proof using HP.
    intros R (Hv & Ho & Hk). change (u_values u !! p = Some (Some v)) in Hv. pose proof (mx_bkt hash keq bc E HP k) as Hbk. destruct HP as ((K1 & K2 & K3) & Hh & (S1 & S2 & S3)).
    assert (HP' : key_equality keq /\ hash_respects keq hash /\ sizes_ok bc E) by exact HP.
    assert (Hocc : forall y w, u_values u !! y = Some (Some w) -> u_occ u !! y = Some true) by (intros y w Hy; rewrite (ur_occ _ _ _ _ _ _ _ _ _ _ R), Hy; reflexivity).
    destruct (lookup_lt_is_Some_2 G (bkt k)) as [g Hg]; [rewrite (ur_lg _ _ _ _ _ _ _ _ _ _ R); exact Hbk|].
    pose proof (mx_keq hash keq bc E HP' _ _ Hk) as Ebk.
    pose proof (ur_kd _ _ _ _ _ _ _ _ _ _ R _ g Hg) as KD. pose proof (ur_head _ _ _ _ _ _ _ _ _ _ R _ g Hg) as Hhd.
    pose proof (chain_nodup kf hash keq true (fun m => seq 0 m) (fun _ => reflexivity _) K1 K2 K3 Hh bc E S1 S2 S3 _ u G st R _ g Hg) as ND.
    assert (Hrange : forall q, q ∈ gpos g -> (bc <= q)%nat) by (intros q Hq; exact (proj1 (chain_range kf hash keq true (fun m => seq 0 m) (fun _ => reflexivity _) K1 K2 K3 Hh bc E S1 S2 S3 _ u G st R _ g q Hg Hq))).
    assert (Hent : forall j q, gpos g !! j = Some q -> exists w, g.2 !! j = Some (q, w) /\ u_values u !! q = Some (Some w) /\ bkt (kf w) = bkt k).
    { intros j q Hq. unfold gpos in Hq. rewrite list_lookup_fmap in Hq. destruct (g.2 !! j) as [[q' w]|] eqn:Ej; [|discriminate]. injection Hq as ->. exists w. split; [reflexivity|]. assert (Hin : (q, w) ∈ g.2) by (eapply elem_of_list_lookup_2; exact Ej). split; [exact (ur_chain _ _ _ _ _ _ _ _ _ _ R _ g q w Hg Hin)|].
      apply (ur_bkt _ _ _ _ _ _ _ _ _ _ R _ g w Hg). unfold gvals. apply elem_of_app. right. apply elem_of_list_fmap. exists (q, w). auto. }
    assert (Hpos : p = bkt k \/ exists j, gpos g !! j = Some p).
    { assert (Hp : (p < n)%nat) by (rewrite <- (ur_lv _ _ _ _ _ _ _ _ _ _ R); eapply lookup_lt_Some; exact Hv). destruct (decide (p < bc)%nat) as [Hlt|Hge].
      - left. destruct (lookup_lt_is_Some_2 G p) as [g' Hg']; [rewrite (ur_lg _ _ _ _ _ _ _ _ _ _ R); exact Hlt|]. pose proof (ur_head _ _ _ _ _ _ _ _ _ _ R p g' Hg') as Hh'. rewrite Hv in Hh'. injection Hh' as Hh'.
        rewrite <- Ebk. symmetry. apply (ur_bkt _ _ _ _ _ _ _ _ _ _ R p g' v Hg'). unfold gvals. rewrite <- Hh'. left.
      - right. assert (Hin : p ∈ (G ≫= gpos) ++ st) by (rewrite (ur_perm _ _ _ _ _ _ _ _ _ _ R); apply elem_of_seq; lia). apply elem_of_app in Hin as [Hin|Hin]; [|rewrite (ur_free _ _ _ _ _ _ _ _ _ _ R p Hin) in Hv; discriminate].
        apply elem_of_list_bind in Hin as (g' & Hpg & Hg'). apply elem_of_list_lookup in Hg' as [b' Hg']. assert (Hpg' := Hpg). apply elem_of_list_fmap in Hpg as ([q w] & Hq & Hin). cbn in Hq. subst q.
        pose proof (ur_chain _ _ _ _ _ _ _ _ _ _ R b' g' p w Hg' Hin) as Hw. rewrite Hv in Hw. injection Hw as <-. assert (Hb' : bkt (kf v) = b') by (apply (ur_bkt _ _ _ _ _ _ _ _ _ _ R b' g' v Hg'); unfold gvals; apply elem_of_app; right; apply elem_of_list_fmap; exists (p, v); auto).
        assert (g' = g) as -> by congruence. apply elem_of_list_lookup in Hpg'. exact Hpg'. }
    pose proof (ur_link _ _ _ _ _ _ _ _ _ _ R _ g Hg) as HL. destruct Hpos as [-> |[j Hj]].
    - (* at the head *) exists [bkt k]. split.
      + split; auto; [apply NoDup_singleton|]. intros [|m] y Hy; discriminate.
      + assert (Hone : forall y, prot (bkt k) [bkt k] y -> y = bkt k) by (intros y [H|[m H]]; [exact H|destruct m; discriminate]). split.
        * intros m x y _ Hy. destruct m; discriminate.
        * intros y Hy. rewrite (Hone y Hy). exact (Hocc _ _ Hv).
        * intros y Hy. rewrite (Hone y Hy). exists v. split; [exact Hv|auto].
        * exact Hv.
        * intros H. contradiction.
    - (* in the list *) set (path := bkt k :: take (S j) (gpos g)). assert (Hsub : forall m x, path !! m = Some x -> (bkt k :: gpos g) !! m = Some x).
      { intros [|m] x Hx; [exact Hx|]. change (take (S j) (gpos g) !! m = Some x) in Hx. change (gpos g !! m = Some x). destruct (decide (m < S j)%nat) as [Hm|Hm]; [rewrite lookup_take in Hx by exact Hm; exact Hx|]. rewrite lookup_take_ge in Hx by lia. discriminate. }
      assert (Htl : forall m y, path !! S m = Some y -> gpos g !! m = Some y) by (intros m y Hy; exact (Hsub (S m) y Hy)).
      assert (Hvj : g.2 !! j = Some (p, v)). { destruct (Hent j p Hj) as (w & H1 & H2 & _). rewrite Hv in H2. injection H2 as <-. exact H1. }
      assert (Hgv : forall m q w, g.2 !! m = Some (q, w) -> gvals g !! (length (olist g.1) + m)%nat = Some w) by (intros m q w Hm; unfold gvals; rewrite lookup_app_r by lia; replace (length (olist g.1) + m - length (olist g.1))%nat with m by lia; rewrite list_lookup_fmap, Hm; reflexivity).
      assert (Hpne : p <> bkt k) by (intros ->; pose proof (Hrange (bkt k) (elem_of_list_lookup_2 _ _ _ Hj)); lia).
      assert (Hpin : path !! S j = Some p) by (change (take (S j) (gpos g) !! j = Some p); rewrite lookup_take by lia; exact Hj).
      assert (Hpr : forall y, prot p path y -> exists m, gpos g !! m = Some y) by (intros y [-> |[m Hm]]; eauto).
      exists path. split.
      + split; auto.
        * rewrite last_lookup. replace (Nat.pred (length path)) with (S j); [exact Hpin|]. unfold path. cbn [length]. rewrite take_length. apply lookup_lt_Some in Hj. lia.
        * rewrite <- (take_drop (S j) (gpos g)) in ND. change (NoDup (path ++ drop (S j) (gpos g))) in ND. apply NoDup_app in ND. apply ND.
        * intros m y Hy. apply Hrange. eapply elem_of_list_lookup_2. exact (Htl m y Hy).
      + split.
        * intros m x y Hx Hy. exact (linked_links _ _ _ HL m x y (Hsub _ _ Hx) (Hsub _ _ Hy)).
        * intros y Hy. destruct (Hpr y Hy) as [m Hm]. destruct (Hent m y Hm) as (w & _ & Hw & _). exact (Hocc y w Hw).
        * intros y Hy. destruct (Hpr y Hy) as [m Hm]. destruct (Hent m y Hm) as (w & H1 & Hw & H3). exists w. split; [exact Hw|]. split; [exact H3|]. intros Hkw.
          assert (Hmj : (length (olist g.1) + m = length (olist g.1) + j)%nat) by (apply (KD _ _ w v (Hgv m y w H1) (Hgv j p v Hvj)); apply (K3 _ k); [exact Hkw|apply K2; exact Hk]).
          assert (m = j) as -> by lia. congruence.
        * exact Hv.
        * intros _ Hob. assert (Hhv : exists w, u_values u !! bkt k = Some (Some w)). { change (u_occ u !! bkt k = Some true) in Hob. rewrite (ur_occ _ _ _ _ _ _ _ _ _ _ R), Hhd in Hob. destruct g.1 as [w|]; [rewrite Hhd; eauto|discriminate]. }
          destruct Hhv as [w Hw]. exists w. split; [exact Hw|]. destruct (keq (kf w) k) eqn:Ekw; [|reflexivity]. exfalso. rewrite Hw in Hhd. injection Hhd as Hg1.
          assert (H0 : gvals g !! 0%nat = Some w) by (unfold gvals; rewrite <- Hg1; reflexivity). pose proof (KD _ _ w v H0 (Hgv j p v Hvj) (K3 _ _ _ Ekw (K2 _ _ Hk))) as H. rewrite <- Hg1 in H. cbn in H. lia.
  Qed.
End top.
