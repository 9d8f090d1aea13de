(** Kernels whose keys do not collide (C78): all calls can complete; and the containers of a history as starting points. *)
From Verif Require Import Base Conc SlotModel VectorModel VectorProofs UnorderedModel UnorderedSpec UnorderedProofs UConcModel UConcSpec UConcProofs UEraseModel UEraseSpec UMixSpec UMixShape UMixTop UOneSpec UOneDefs UOneTop UProgSpec USepSpec USepProofs USepTop.

Section prog.
  Context {K V : Type} (kf : V -> K) (hash : K -> Z) (keq : K -> K -> bool) (bc E : nat).
  Hypothesis HP : key_equality keq /\ hash_respects keq hash /\ sizes_ok bc E.
  Notation n := (bc + E)%nat.
  Notation bkt := (UnorderedProofs.bkt hash bc).
  Notation bk op := (bkt (op_key kf op)).
  Notation step := (estep kf hash keq bc E).
  Implicit Types (s : cshared V) (t : cthread K V) (ls : list (cthread K V)) (h : list (nat * (cop K V * cret))) (op : cop K V).
  Context (progs : list (list (cop K V))) (s0 : cshared V).
  Hypothesis H0 : srest kf hash bc E s0.
  Hypothesis Hsep : separate kf hash keq bc s0 progs.
  Notation sinv := (sinv kf hash keq bc E progs s0).
  Notation held := (held kf hash bc).

  (** the number of steps that a call has left, at most, if its bucket stays as it is; [o]: the bucket is occupied *)
  Definition rank op (o : bool) (pc : upc) : nat :=
    match op, pc with
    | _, UIdle => 40
    | CFind _, FOcc _ _ => 2
    | CFind _, _ => 1
    | CInsert _, FOff FIns1 _ => if o then 32 else 17
    | CInsert _, IOcc => if o then 31 else 16
    | CInsert _, EOff EIns1 _ => 30
    | CInsert _, ILockL _ => 29
    | CInsert _, EOff (EIns2 _) _ => 28
    | CInsert _, FOcc (FInsL _ _) _ => 27
    | CInsert _, FVal (FInsL _ _) _ => 26
    | CInsert _, IUnlL _ _ => 25
    | CInsert _, ILockB => if o then 24 else 15
    | CInsert _, FOcc FInsB _ => if o then 23 else 14
    | CInsert _, FVal FInsB _ => 22
    | CInsert _, IUnlB None => 21
    | CInsert _, UFullCheck => 20
    | CInsert _, UEmptyCheck => 19
    | CInsert _, FOcc FIns1 _ => 18
    | CInsert _, FOff FInsB _ => 13
    | CInsert _, IOccB => 12
    | CInsert _, IConB => 11
    | CInsert _, ICntB => 10
    | CInsert _, ISetB => 9
    | CErase _, FVal FEr1 _ => if o then 9 else 15
    | CErase _, XLockB _ => if o then 8 else 14
    | CErase _, FOcc (FErB _) _ => if o then 7 else 13
    | CErase _, FOff (FErB _) _ => 12
    | CErase _, XUnlB _ ok => if ok then 2 else 11
    | CErase _, FOcc FEr1 _ => 10
    | CErase _, FVal (FErB _) _ => 6
    | CErase _, XResetB _ => 5
    | CErase _, XCntB _ => 4
    | CErase _, XDesB _ => 3
    | _, _ => 1
    end%nat.
  Lemma rank_pos op (o : bool) pc : (0 < rank op o pc)%nat.
  Proof. unfold rank. repeat case_match; lia. Qed.
  Definition occb s (b : nat) : bool := default false (c_occ s !! b).
  Lemma occb_some s b o : c_occ s !! b = Some o -> occb s b = o.
  Proof. unfold occb. intros ->. reflexivity. Qed.

  Lemma step_dec s ls h i t op rest s' t' : sinv s ls h -> ls !! i = Some t -> c_prog t = op :: rest -> step i s t = Some (s', t') -> (hl (c_pc t) = true \/ c_locks s !! bk op = Some false) ->
    (exists r, t' = cfinish t op r) \/ (exists pc, t' = cgo t pc /\ (rank op (occb s' (bk op)) pc < rank op (occb s (bk op)) (c_pc t))%nat).
  Proof using HP H0 Hsep.
    intros I Hi Ep Hst Hlk.
    pose proof (bk_bucket hash keq bc E HP (op_key kf op)) as Hb. pose proof (bk_lt hash keq bc E HP (op_key kf op)) as Hlt.
    destruct (s_len _ _ _ _ _ _ _ _ _ _ I) as (L1 & L2 & L3 & L4).
    assert (U : key_used kf progs (op_key kf op)) by (eapply makes_key, (s_prg _ _ _ _ _ _ _ _ _ _ I _ _ _ Hi); rewrite Ep; left).
    assert (Hoff : c_off s !! bk op = Some 0) by (rewrite (s_off _ _ _ _ _ _ _ _ _ _ I); exact (off_zero kf hash keq bc E HP progs s0 Hsep _ U)).
    destruct (lookup_lt_is_Some_2 (c_occ s) (bk op)) as [o Ho]; [lia|]. destruct (lookup_lt_is_Some_2 (c_locks s) (bk op)) as [l Hl]; [lia|]. destruct (lookup_lt_is_Some_2 (c_values s) (bk op)) as [w Hw]; [lia|].
    assert (Hlk' : hl (c_pc t) = true \/ l = false) by (destruct Hlk as [A|A]; [auto|right; congruence]). clear Hlk.
    pose proof (s_thr _ _ _ _ _ _ _ _ _ _ I _ _ Hi) as Htk. unfold tok in Htk. rewrite Ep in Htk.
    pose proof (count_lt kf hash keq bc E HP progs s0 H0 s ls h I) as Hcnt. pose proof H0 as (_ & _ & _ & _ & _ & _ & Hclamp). pose proof (s_ex _ _ _ _ _ _ _ _ _ _ I) as Hex. rewrite <- Hex in Hclamp.
    rewrite (occb_some s _ o Ho).
    assert (Hset : forall b', occb (put_occ s (bk op) b') (bk op) = b') by (intros b'; apply occb_some; cbn; apply list_lookup_insert; lia).
    destruct (c_pc t) as [| | |c j|c j|c j|c j|c j|c j|c j p|c j p| | | | | | |r|e|e q|e p|e p|e p|e p|e p|e r|p|p|p|p|p ok|p q|p q|p|p q|p q|p q o'|p q o'|p q|p q|p q|p q x|p q ok|q ok] eqn:Epc;
      try (destruct c); try (destruct r as [r|]); destruct op as [v|k|k]; cbn [USepProofs.pcok] in Htk; try contradiction; cbn [op_key] in *;
      repeat match type of Htk with _ /\ _ => let A := fresh "Hx" in destruct Htk as [A Htk] end; repeat match goal with A : ?x = bkt _ |- _ => is_var x; subst x end;
      repeat match goal with A : haskey _ _ _ _ _ |- _ => destruct A as (v' & Hv' & Hk') end; repeat match goal with A : filled _ _ _ _ _ |- _ => destruct A as [F1 F2] end;
      cbn [hl] in Hlk'; repeat match goal with A : false = true \/ _ |- _ => destruct A as [A|A]; [discriminate A|subst l] end;
      unfold estep in Hst; rewrite Epc in Hst; unfold ustep in Hst; rewrite ?Ep in Hst; cbn [op_key] in Hst; rewrite ?Hb, ?Epc in Hst; cbn iota in Hst;
      repeat match goal with A : c_values s !! _ = Some (Some _) |- _ => rewrite A in Hst; clear A end; repeat match goal with A : c_occ s !! _ = Some ?b |- _ => tryif is_var b then fail else (assert (o = b) as -> by congruence; clear A) end;
      rewrite ?Ho, ?Hl, ?Hw, ?Hoff in Hst; cbn iota in Hst; repeat match goal with A : keq _ _ = true |- _ => rewrite A in Hst; clear A end;
      try (rewrite (proj2 (Z.eqb_neq _ _)) in Hst by first [exact Hclamp|lia]); cbn [after_find after_end again Z.eqb] in Hst; rewrite ?bool_decide_true in Hst by reflexivity; try destruct ok; try destruct o;
      injection Hst as <- <-; (left; eexists; reflexivity) || (right; eexists; split; [reflexivity|]; rewrite ?Hset; try rewrite (occb_some _ _ _ Ho); cbn; lia || (unfold occb; cbn; rewrite Ho; cbn; lia)).
  Qed.
  Lemma solo_reach_c i s t s' t' ls : ls !! i = Some t -> solo step i (s, t) (s', t') -> Conc.reach step (s, ls) (s', <[i := t']> ls).
  Proof.
    intros Hi R. remember (s, t) as c eqn:E1. remember (s', t') as c' eqn:E2. revert s t ls Hi E1. induction R as [c|c c1 c2 Hs _ IH]; intros s t ls Hi E1.
    - subst. injection E1 as -> ->. rewrite list_insert_id by exact Hi. apply rtc_refl.
    - subst. destruct c1 as [s1 t1]. cbn [fst snd] in Hs. eapply rtc_l; [econstructor; eassumption|]. specialize (IH eq_refl s1 t1 (<[i := t1]> ls) ltac:(apply list_lookup_insert; eapply lookup_lt_Some; exact Hi) eq_refl). rewrite list_insert_insert in IH. exact IH.
  Qed.
  Lemma call_ends m : forall s ls h i t op rest, sinv s ls h -> ls !! i = Some t -> c_prog t = op :: rest -> (forall j tj, j <> i -> ls !! j = Some tj -> held tj <> Some (bk op)) -> (rank op (occb s (bk op)) (c_pc t) <= m)%nat ->
    exists s' r h', solo step i (s, t) (s', cfinish t op r) /\ sinv s' (<[i := cfinish t op r]> ls) h'.
  Proof using HP H0 Hsep.
    induction m as [|m IH]; intros s ls h i t op rest I Hi Ep Hoth Hm.
    { exfalso. pose proof (rank_pos op (occb s (bk op)) (c_pc t)). lia. }
    destruct (step_all kf hash keq bc E HP progs s0 H0 Hsep s ls h i t I Hi ltac:(rewrite Ep; discriminate)) as (s1 & t1 & evl & Hst & I1).
    assert (Hlk : hl (c_pc t) = true \/ c_locks s !! bk op = Some false).
    { destruct (hl (c_pc t)) eqn:Eh; [auto|]. right. destruct (s_len _ _ _ _ _ _ _ _ _ _ I) as (_ & _ & _ & L4). pose proof (bk_lt hash keq bc E HP (op_key kf op)) as Hlt.
      destruct (lookup_lt_is_Some_2 (c_locks s) (bk op)) as [[] Hl]; [lia| |exact Hl]. destruct (s_lock _ _ _ _ _ _ _ _ _ _ I _ Hl) as (j & tj & Hj & Hh). destruct (decide (j = i)) as [-> |Hne]; [|destruct (Hoth j tj Hne Hj Hh)].
      assert (tj = t) as -> by congruence. unfold USepProofs.held in Hh. rewrite Ep, Eh in Hh. discriminate. }
    destruct (step_dec s ls h i t op rest s1 t1 I Hi Ep Hst Hlk) as [(r & ->)|(pc & -> & Hd)].
    - exists s1, r, (h ++ ((fun x => (i, x)) <$> evl)). split; [apply rtc_once; exact Hst|exact I1].
    - assert (Hi1 : <[i := cgo t pc]> ls !! i = Some (cgo t pc)) by (apply list_lookup_insert; eapply lookup_lt_Some; exact Hi).
      destruct (IH s1 (<[i := cgo t pc]> ls) _ i (cgo t pc) op rest I1 Hi1 Ep) as (s2 & r & h2 & R & I2); [|cbn [cgo c_pc]; lia|].
      { intros j tj Hne Hj. rewrite list_lookup_insert_ne in Hj by congruence. exact (Hoth j tj Hne Hj). }
      rewrite list_insert_insert in I2. exists s2, r, h2. split; [|exact I2]. eapply rtc_l; [exact Hst|exact R].
  Qed.
  Lemma all_end m : forall s ls h, sinv s ls h -> (length (ls ≫= c_prog) <= m)%nat -> exists s' ls', Conc.reach step (s, ls) (s', ls') /\ all_returned ls'.
  Proof using HP H0 Hsep.
    induction m as [m IH] using (well_founded_induction lt_wf). intros s ls h I Hm.
    assert (Hone : forall i t op rest, ls !! i = Some t -> c_prog t = op :: rest -> (forall j tj, j <> i -> ls !! j = Some tj -> held tj <> Some (bk op)) -> exists s' ls', Conc.reach step (s, ls) (s', ls') /\ all_returned ls').
    { intros i t op rest Hi Ep Hoth. destruct (call_ends _ s ls h i t op rest I Hi Ep Hoth (Nat.le_refl _)) as (s1 & r & h1 & R & I1).
      assert (Hlen : (length (<[i := cfinish t op r]> ls ≫= c_prog) < length (ls ≫= c_prog))%nat).
      { clear - Hi Ep. revert i Hi. induction ls as [|a l IHl]; intros [|i] Hi; try discriminate.
        - injection Hi as ->. change (<[0%nat := cfinish t op r]> (t :: l)) with (cfinish t op r :: l). rewrite !bind_cons, !app_length. cbn [cfinish c_prog]. rewrite Ep. cbn. lia.
        - change (<[S i := cfinish t op r]> (a :: l)) with (a :: <[i := cfinish t op r]> l). rewrite !bind_cons, !app_length. specialize (IHl i Hi). lia. }
      destruct (IH (length (<[i := cfinish t op r]> ls ≫= c_prog)) ltac:(lia) s1 _ h1 I1 (Nat.le_refl _)) as (s2 & ls2 & R2 & Hall). exists s2, ls2. split; [|exact Hall]. etrans; [eapply solo_reach_c; eassumption|exact R2]. }
    destruct (decide (Exists (fun t => held t <> None) ls)) as [Hex|Hnex].
    - apply Exists_exists in Hex as (t & Ht & Hh). apply elem_of_list_lookup in Ht as [i Hi]. destruct (held t) as [b|] eqn:Eh; [|congruence]. destruct (held_prog kf hash bc t b Eh) as (op & rest & Ep & -> & _).
      eapply Hone; [exact Hi|exact Ep|]. intros j tj Hne Hj Hhj. exact (Hne (s_excl _ _ _ _ _ _ _ _ _ _ I _ _ _ _ _ Hj Hi Hhj Eh)).
    - destruct (decide (Exists (fun t => c_prog t <> []) ls)) as [Hex|Hdone].
      + apply Exists_exists in Hex as (t & Ht & Hp). apply elem_of_list_lookup in Ht as [i Hi]. destruct (c_prog t) as [|op rest] eqn:Ep; [congruence|]. eapply Hone; [exact Hi|exact Ep|].
        intros j tj _ Hj Hhj. apply Hnex. apply Exists_exists. exists tj. split; [eapply elem_of_list_lookup_2; exact Hj|congruence].
      + exists s, ls. split; [apply rtc_refl|]. intros t Ht. destruct (c_prog t) as [|op rest] eqn:Ep; [|exfalso; apply Hdone, Exists_exists; exists t; split; [exact Ht|rewrite Ep; discriminate]].
        split; [reflexivity|]. apply elem_of_list_lookup in Ht as [i Hi]. pose proof (s_thr _ _ _ _ _ _ _ _ _ _ I _ _ Hi) as Htk. unfold tok in Htk. rewrite Ep in Htk. exact Htk.
  Qed.
End prog.

(** *** starting points *)
Section start.
  Context {K V : Type} (kf : V -> K) (hash : K -> Z) (keq : K -> K -> bool) (bc E : nat).
  Hypothesis HP : key_equality keq /\ hash_respects keq hash /\ sizes_ok bc E.
  Notation n := (bc + E)%nat.
  Notation bkt := (UnorderedProofs.bkt hash bc).
  Lemma stored_sum (s : cshared V) : length (c_values s) = length (c_occ s) -> (forall p, c_occ s !! p = Some true -> exists v, c_values s !! p = Some (Some v)) -> Z.of_nat (length (stored_values s)) = sumZ b2z (c_occ s).
  Proof.
    unfold stored_values. generalize (c_values s) (c_occ s). intros vs os. revert vs. induction os as [|o os IH]; intros [|v vs] Hl Hv; cbn in Hl; try discriminate; [reflexivity|].
    assert (IH' : Z.of_nat (length (omap (fun x => x) (zip_with (fun (o : bool) (v : option V) => if o then v else None) os vs))) = sumZ b2z os) by (apply IH; [lia|intros p; exact (Hv (S p))]).
    cbn [zip_with omap list_omap sumZ]. destruct o; [|cbn; exact IH']. destruct (Hv 0%nat eq_refl) as [w Hw]. injection Hw as ->. cbn [length b2z]. cbn [omap list_omap] in IH'. lia.
  Qed.
  Lemma urep_srest u G st : urep kf hash keq true bc E (replicate n false) u G st -> 0 < v_size (u_excess u) -> srest kf hash bc E (shared_of u).
  Proof using HP.
    intros R Hroom. pose proof (start_shape kf hash keq bc E HP 0%nat u G st R) as S0. pose proof (urep_rest kf hash keq bc E HP u G st R) as R0. destruct (rest_facts bc E _ R0) as (F1 & F2 & F3).
    pose proof (ur_perm _ _ _ _ _ _ _ _ _ _ R) as Hperm.
    assert (Hval : forall p, c_occ (shared_of u) !! p = Some true -> exists v, c_values (shared_of u) !! p = Some (Some v)).
    { intros p Hp. cbn in Hp |- *. rewrite (ur_occ _ _ _ _ _ _ _ _ _ _ R) in Hp. destruct (u_values u !! p) as [[v|]|]; cbn in Hp; [eauto|discriminate|discriminate]. }
    split; [repeat split; first [exact (ur_lv _ _ _ _ _ _ _ _ _ _ R)|exact (ur_lf _ _ _ _ _ _ _ _ _ _ R)|exact (ur_lo _ _ _ _ _ _ _ _ _ _ R)|cbn; rewrite (ur_lk _ _ _ _ _ _ _ _ _ _ R); apply replicate_length]|].
    split; [intros p; cbn; rewrite (ur_lk _ _ _ _ _ _ _ _ _ _ R); intros Hp; apply lookup_replicate in Hp as [Hp _]; discriminate|].
    split; [exact Hval|]. split; [|split; [|split]].
    - intros p v [Hv Ho]. cbn in Hv, Ho. assert (Hp : (p < n)%nat) by (rewrite <- (ur_lv _ _ _ _ _ _ _ _ _ _ R); eapply lookup_lt_Some; exact Hv).
      assert (Hin : exists c g, G !! c = Some g /\ v ∈ gvals g /\ (p = c \/ p ∈ gpos g)).
      { destruct (decide (p < bc)%nat) as [Hlt|Hge].
        - destruct (lookup_lt_is_Some_2 G p) as [g Hg]; [rewrite (ur_lg _ _ _ _ _ _ _ _ _ _ R); exact Hlt|]. pose proof (ur_head _ _ _ _ _ _ _ _ _ _ R p g Hg) as Hh. rewrite Hv in Hh. injection Hh as Hh. exists p, g. split; [exact Hg|]. split; [unfold gvals; rewrite <- Hh; left|auto].
        - assert (Hs : p ∈ seq bc E) by (apply elem_of_seq; lia). rewrite <- Hperm in Hs. apply elem_of_app in Hs as [Hs|Hs]; [|rewrite (ur_free _ _ _ _ _ _ _ _ _ _ R p Hs) in Hv; discriminate].
          apply elem_of_list_bind in Hs as (g & Hp' & Hg). apply elem_of_list_lookup in Hg as [c Hc]. exists c, g. split; [exact Hc|]. split; [|auto]. unfold gpos in Hp'. apply elem_of_list_fmap in Hp' as ([p' v'] & -> & Hin). cbn in *.
          pose proof (ur_chain _ _ _ _ _ _ _ _ _ _ R c g p' v' Hc Hin) as Hv2. assert (v' = v) as -> by congruence. unfold gvals. apply elem_of_app. right. apply elem_of_list_fmap. exists (p', v). auto. }
      destruct Hin as (c & g & Hc & Hg & Hpos). pose proof (ur_bkt _ _ _ _ _ _ _ _ _ _ R c g v Hc Hg) as Hbk. assert (Hcb : (c < bc)%nat) by (rewrite <- (ur_lg _ _ _ _ _ _ _ _ _ _ R); eapply lookup_lt_Some; exact Hc).
      rewrite Hbk. apply (reached kf hash keq bc E HP _ _ _ _ _ _ _ _ _ _ S0 Hcb). unfold lst_of, gb. rewrite Hc. cbn. destruct Hpos as [-> |Hpos]; [left|right; exact Hpos].
    - rewrite F3, <- (stored_values_eq bc E) by assumption. apply stored_sum; [lia|exact Hval].
    - pose proof (ur_ex _ _ _ _ _ _ _ _ _ _ R) as Hex. assert (Hst : st <> []).
      { intros ->. unfold v_size, clamp_size in Hroom. rewrite (r_n _ _ _ _ Hex) in Hroom. cbn in Hroom. repeat case_match; lia. }
      destruct st as [|x st']; [congruence|]. exists x. assert (Hx : x ∈ seq bc E) by (rewrite <- Hperm; apply elem_of_app; right; left). apply elem_of_seq in Hx. split; [lia|]. cbn. rewrite (ur_occ _ _ _ _ _ _ _ _ _ _ R), (ur_free _ _ _ _ _ _ _ _ _ _ R x) by left. reflexivity.
    - cbn. unfold v_size in Hroom. pose proof (ur_ex _ _ _ _ _ _ _ _ _ _ R) as Hex. replace (Z.of_nat E) with (v_capacity (u_excess u)); [lia|]. unfold v_capacity. rewrite ?(r_ld _ _ _ _ Hex), ?(r_lo _ _ _ _ Hex). reflexivity.
  Qed.
End start.
