(** Threads that free only the blocks they own: no block is freed twice, and the counts agree with the blocks. *)
From Verif Require Import Base Conc MemoryModel MemorySpec MemoryProofs.

Definition pc_tok (pc : mpc) : list Z := match pc with PMalloced p _ _ | PChecked p _ | PFree p _ => [p] | _ => [] end.
Definition tok (th : mthread) : list Z := pc_tok (mt_pc th) ++ (mt_own th).*1.
Definition rpc_tok (t : mtype) (pc : mpc) : list Z := match pc with PChecked p t' => if decide (t' = t) then [p] else [] | _ => [] end.
Definition own_tok (t : mtype) (th : mthread) : list Z := (filter (fun x => x.2 = t) (mt_own th)).*1.
Definition rtok (t : mtype) (th : mthread) : list Z := rpc_tok t (mt_pc th) ++ own_tok t th.

Lemma own_tok_in t th p : p ∈ own_tok t th -> p ∈ (mt_own th).*1.
Proof. unfold own_tok. intros H. apply elem_of_list_fmap in H as (x & -> & H). apply elem_of_list_filter in H as [_ H]. apply elem_of_list_fmap. eauto. Qed.
Lemma rtok_in t th p : p ∈ rtok t th -> p ∈ tok th.
Proof.
  unfold rtok, tok. rewrite !elem_of_app. intros [H|H]; [left|right; eapply own_tok_in; exact H].
  destruct (mt_pc th); cbn in *; try (inversion H; fail). destruct (decide _); [exact H|inversion H].
Qed.

Lemma bind_split {A B} (f : A -> list B) ls i l l' : ls !! i = Some l ->
  exists rest, ls ≫= f ≡ₚ f l ++ (rest ≫= f) /\ <[i := l']> ls ≫= f ≡ₚ f l' ++ (rest ≫= f) /\ rest = take i ls ++ drop (S i) ls.
Proof.
  intros H. exists (take i ls ++ drop (S i) ls). split; [|split; [|reflexivity]].
  - rewrite <- (take_drop_middle ls i l H) at 1. rewrite !bind_app. change (l :: drop (S i) ls ≫= f) with (f l ++ (drop (S i) ls ≫= f)). apply Permutation_app_swap_app.
  - rewrite insert_take_drop by (eapply lookup_lt_Some; exact H). rewrite !bind_app. change (l' :: drop (S i) ls ≫= f) with (f l' ++ (drop (S i) ls ≫= f)). apply Permutation_app_swap_app.
Qed.

Section conc.
  Context (malloc : nat -> list (Z * Z) -> Z -> Z) (Hm : malloc_ok malloc) (Hnf : never_fails malloc).

  Definition prog_ok (p : list cop) : Prop := forall op, op ∈ p -> match op with CDealloc _ _ => False | _ => True end.
  Record cinv (c : mem * list mthread) : Prop := {
    ci_tok : NoDup (c.2 ≫= tok);
    ci_heap : forall p, p ∈ c.2 ≫= tok -> p ∈ keys (heap c.1);
    ci_hrep : hrep (heap c.1);
    ci_pc : forall th, th ∈ c.2 -> prog_ok (mt_prog th) /\ (forall p, mt_pc th <> PDoubleFree p) /\ (forall p t, (p, t) ∈ mt_own th \/ mt_pc th = PChecked p t -> t <> invalid) /\ (forall p n t, mt_pc th = PMalloced p n t -> t <> invalid);
    ci_keys : forall t, keys (m_ptrs (alloc_mgr c.1 t)) ≡ₚ c.2 ≫= rtok t;
    ci_count : forall t, allocation_count c.1 t - deallocation_count c.1 t = Z.of_nat (length (m_ptrs (alloc_mgr c.1 t)));
    ci_all : (keys (heap c.1)) ≡ₚ c.2 ≫= tok
  }.

  Lemma prog_ok_tail p : prog_ok p -> prog_ok (tail p).
  Proof. intros H op Hop. apply H. destruct p; [inversion Hop|right; exact Hop]. Qed.
  Lemma pc_update (s' : mem) (ls : list mthread) i th' (P : mthread -> Prop) : (forall th, th ∈ ls -> P th) -> P th' -> forall th, th ∈ <[i := th']> ls -> P th.
  Proof. intros H1 H2 th H. apply elem_of_list_lookup in H as [j Hj]. apply list_lookup_insert_Some in Hj as [(_ & <- & _)|[_ Hj]]; [exact H2|]. apply H1. eapply elem_of_list_lookup_2. exact Hj. Qed.
  Lemma bind_tok_in (ls : list mthread) t p : p ∈ ls ≫= rtok t -> p ∈ ls ≫= tok.
  Proof. intros H. apply elem_of_list_bind in H as (th & H1 & H2). apply elem_of_list_bind. exists th. split; [eapply rtok_in; exact H1|exact H2]. Qed.
  Lemma map_erase_len l p : NoDup (keys l) -> p ∈ keys l -> exists n, l ≡ₚ (p, n) :: map_erase l p.
  Proof. intros ND H. apply elem_of_list_fmap in H as ([q n] & -> & H). exists n. apply map_erase_perm; assumption. Qed.

  Lemma cinv_step c c' : cstep (mem_tstep malloc) c c' -> cinv c -> cinv c'.
  Proof using All.
    intros Hs I. destruct Hs as [s ls i th s' th' Hi Hst]. destruct I as [I1 I2 I3 I4 I5 I6 I7]. cbn [fst snd] in *.
    assert (Hth : th ∈ ls) by (eapply elem_of_list_lookup_2; exact Hi). destruct (I4 _ Hth) as (Hp & Hdf & Ho & Hma).
    destruct (bind_split tok ls i th th' Hi) as (rest & T1 & T2 & Erest).
    assert (K : forall t, ls ≫= rtok t ≡ₚ rtok t th ++ (rest ≫= rtok t) /\ <[i := th']> ls ≫= rtok t ≡ₚ rtok t th' ++ (rest ≫= rtok t)).
    { intros t. destruct (bind_split (rtok t) ls i th th' Hi) as (rest' & K1 & K2 & E'). subst rest rest'. auto. }
    assert (Hnr : forall p t, p ∈ tok th -> p ∉ rest ≫= rtok t).
    { intros p t H1 H2. rewrite T1 in I1. apply NoDup_app in I1 as (_ & Hx & _). apply (Hx p H1). eapply bind_tok_in. exact H2. }
    (* the generic end of a step: same heap, same managers *)
    assert (Same : s' = s -> tok th' ≡ₚ tok th -> (forall t, rtok t th' ≡ₚ rtok t th) ->
      (prog_ok (mt_prog th') /\ (forall p, mt_pc th' <> PDoubleFree p) /\ (forall p t, (p, t) ∈ mt_own th' \/ mt_pc th' = PChecked p t -> t <> invalid) /\ (forall p n t, mt_pc th' = PMalloced p n t -> t <> invalid)) -> cinv (s', <[i := th']> ls)).
    { intros -> Et Er Hpc. assert (ET : <[i := th']> ls ≫= tok ≡ₚ ls ≫= tok) by (rewrite T1, T2, Et; reflexivity).
      split; cbn [fst snd].
      - rewrite ET. exact I1.
      - intros p. rewrite ET. apply I2.
      - exact I3.
      - apply (pc_update s); assumption.
      - intros t. destruct (K t) as [K1 K2]. rewrite K2, Er, <- K1. apply I5.
      - exact I6.
      - rewrite ET. exact I7. }
    unfold mem_tstep in Hst. destruct (mt_pc th) as [|p n t|p t|p t|p] eqn:Epc.
    - (* idle *)
      assert (Tth : tok th = (mt_own th).*1) by (unfold tok; rewrite Epc; reflexivity).
      assert (Rth : forall t, rtok t th = own_tok t th) by (intros t; unfold rtok; rewrite Epc; reflexivity).
      destruct (mt_prog th) as [|op rest_ops] eqn:Epr; [discriminate|]. destruct op as [n t|k|p t].
      + destruct ((n <=? 0) || bool_decide (t = invalid)) eqn:En.
        { injection Hst as <- <-. apply Same; [reflexivity|unfold tok; cbn; rewrite Epc; reflexivity|intros t'; unfold rtok; cbn; rewrite Epc; reflexivity|].
          cbn. rewrite Epr. split; [apply prog_ok_tail; exact Hp|]. split; [discriminate|]. split; [|discriminate]. intros p t' [H|H]; [|discriminate]. apply (Ho p t'). auto. }
        apply orb_false_iff in En as [En1 En2]. apply bool_decide_eq_false in En2. unfold backend_malloc in Hst. set (p := malloc (clock s) (heap s) n) in *. pose proof (Hnf (clock s) (heap s) n) as Hp0. fold p in Hp0.
        rewrite (proj2 (Z.eqb_neq _ _)) in Hst by exact Hp0. injection Hst as <- <-.
        destruct (Hm (clock s) (heap s) n ltac:(lia)) as [H|[Hpp Hfresh]]; [contradiction|]. fold p in Hpp, Hfresh.
        assert (Hnk : p ∉ keys (heap s)). { intros H. apply elem_of_list_fmap in H as ([q m] & E & H). cbn in E. subst q. pose proof (hr_pos _ I3 _ _ H). destruct (Hfresh _ _ H); lia. }
        assert (ET : <[i := mt_set th (PMalloced p n t) (mt_own th)]> ls ≫= tok ≡ₚ p :: (ls ≫= tok)).
        { rewrite T1, T2. rewrite Tth. cbn. reflexivity. }
        split; cbn [fst snd set_heap heap alloc_mgr].
        * rewrite ET. constructor; [|exact I1]. intros H. apply Hnk, I2, H.
        * intros q. rewrite ET, elem_of_cons. rewrite fmap_cons, elem_of_cons. intros [-> |H]; [left; reflexivity|right; apply I2; exact H].
        * split.
          -- intros q m H. apply elem_of_cons in H as [[= -> ->] |H]; [lia|]. apply (hr_pos _ I3 _ _ H).
          -- constructor; [|apply I3]. intros H. apply Hnk. apply elem_of_list_fmap. exists (p, n). auto.
          -- intros q m q' m0 H1 H2. apply elem_of_cons in H1 as [[= -> ->] |H1]; apply elem_of_cons in H2 as [[= -> ->] |H2]; [auto| | |apply (hr_disj _ I3); assumption].
             ++ right. destruct (Hfresh _ _ H2); lia.
             ++ right. destruct (Hfresh _ _ H1); lia.
        * apply (pc_update s); [exact I4|]. cbn. rewrite Epr. split; [exact Hp|]. split; [discriminate|]. split; [intros q t' [H|H]; [|discriminate]; apply (Ho q t'); auto|]. intros q n' t' [= _ _ <-]. exact En2.
        * intros t'. destruct (K t') as [K1 K2]. rewrite K2. rewrite I5, K1, Rth. reflexivity.
        * exact I6.
        * rewrite ET, fmap_cons, I7. reflexivity.
      + destruct (mt_own th !! k) as [[p t]|] eqn:Ek.
        2: { injection Hst as <- <-. apply Same; [reflexivity|unfold tok; cbn; rewrite Epc; reflexivity|intros t'; unfold rtok; cbn; rewrite Epc; reflexivity|].
          cbn. rewrite Epr. split; [apply prog_ok_tail; exact Hp|]. split; [discriminate|]. split; [|discriminate]. intros p t' [H|H]; [|discriminate]. apply (Ho p t'). auto. }
        pose proof (delete_Permutation _ _ _ Ek) as Hdel.
        assert (Hown : (p, t) ∈ mt_own th) by (eapply elem_of_list_lookup_2; exact Ek).
        assert (Hpin : p ∈ tok th) by (rewrite Tth; apply elem_of_list_fmap; exists (p, t); auto).
        assert (Hph : p ∈ keys (heap s)). { apply I2. rewrite T1. apply elem_of_app. left. exact Hpin. }
        assert (Hpp : 0 < p). { apply elem_of_list_fmap in Hph as ([q m] & -> & H). pose proof (hr_pos _ I3 _ _ H). cbn. lia. }
        assert (Hc : contains_memory (alloc_mgr s t) p = true).
        { unfold contains_memory. destruct (map_find (m_ptrs (alloc_mgr s t)) p) eqn:Ef; [reflexivity|]. apply map_find_none in Ef. exfalso. apply Ef. rewrite I5. destruct (K t) as [K1 _]. rewrite K1, Rth. apply elem_of_app. left.
          unfold own_tok. apply elem_of_list_fmap. exists (p, t). split; [reflexivity|]. apply elem_of_list_filter. auto. }
        unfold start_dealloc in Hst. rewrite (proj2 (Z.eqb_neq _ _)) in Hst by lia. rewrite Hc in Hst. cbn [orb negb] in Hst. injection Hst as <- <-. apply Same.
        * reflexivity.
        * rewrite Tth. unfold tok. cbn. symmetry. exact (fmap_Permutation fst _ _ Hdel).
        * intros t'. rewrite Rth. unfold rtok, own_tok. cbn. rewrite (fmap_Permutation fst _ _ (filter_Permutation (fun x => x.2 = t') _ _ Hdel)). rewrite filter_cons. cbn [snd]. destruct (decide (t = t')); reflexivity.
        * cbn. rewrite Epr. split; [exact Hp|]. split; [discriminate|]. split; [|discriminate]. intros q t' [H|[= -> ->]]; [|apply (Ho q t'); auto]. apply (Ho q t'). left. rewrite Hdel. right. exact H.
      + exfalso. apply (Hp (CDealloc p t)). left.
    - (* register_memory *)
      injection Hst as <- <-. assert (Tth : tok th = p :: (mt_own th).*1) by (unfold tok; rewrite Epc; reflexivity).
      assert (Rth : forall t, rtok t th = own_tok t th) by (intros t'; unfold rtok; rewrite Epc; reflexivity).
      assert (Hpno : p ∉ (mt_own th).*1). { rewrite T1, Tth in I1. cbn in I1. apply NoDup_cons in I1 as [H _]. intros H'. apply H. apply elem_of_app. auto. }
      assert (Hnk : p ∉ keys (m_ptrs (alloc_mgr s t))).
      { rewrite I5. destruct (K t) as [K1 _]. rewrite K1, Rth, elem_of_app. intros [H|H]; [apply Hpno; eapply own_tok_in; exact H|]. revert H. apply Hnr. rewrite Tth. left. }
      assert (ET : <[i := mt_done th ((p, t) :: mt_own th)]> ls ≫= tok ≡ₚ ls ≫= tok) by (rewrite T1, T2, Tth; reflexivity).
      split; cbn [fst snd set_alloc heap alloc_mgr].
      + rewrite ET. exact I1.
      + intros q. rewrite ET. apply I2.
      + exact I3.
      + apply (pc_update s); [exact I4|]. cbn. split; [apply prog_ok_tail; exact Hp|]. split; [discriminate|]. split; [|discriminate]. intros q t' [H|H]; [|discriminate]. apply elem_of_cons in H as [[= -> ->] |H]; [eapply Hma; reflexivity|apply (Ho q t'); auto].
      + intros t'. destruct (K t') as [K1 K2]. rewrite K2. unfold rtok at 1. unfold own_tok. cbn [mt_done mt_pc mt_own rpc_tok app]. rewrite filter_cons. cbn [snd]. pose proof (I5 t') as I5'. rewrite K1, Rth in I5'. unfold own_tok in I5'. destruct (decide (t' = t)) as [->|Hne].
        * rewrite decide_True by reflexivity. cbn. rewrite (fmap_Permutation fst _ _ (map_set_perm _ _ n Hnk)). cbn. rewrite I5'. reflexivity.
        * rewrite decide_False by congruence. exact I5'.
      + intros t'. specialize (I6 t'). unfold allocation_count, deallocation_count in *. cbn. destruct (decide (t' = t)) as [->|Hne]; [|exact I6]. cbn. rewrite (Permutation_length (map_set_perm _ _ n Hnk)). cbn [length]. lia.
      + rewrite ET. exact I7.
    - (* deregister_memory *)
      injection Hst as <- <-. assert (Tth : tok th = p :: (mt_own th).*1) by (unfold tok; rewrite Epc; reflexivity).
      assert (Rth : forall t', rtok t' th = (if decide (t = t') then [p] else []) ++ own_tok t' th) by (intros t'; unfold rtok; rewrite Epc; reflexivity).
      assert (ET : <[i := mt_set th (PFree p t) (mt_own th)]> ls ≫= tok ≡ₚ ls ≫= tok) by (rewrite T1, T2, Tth; reflexivity).
      assert (Hrk : keys (m_ptrs (alloc_mgr s t)) ≡ₚ p :: (own_tok t th ++ (rest ≫= rtok t))) by (rewrite I5; destruct (K t) as [K1 _]; rewrite K1, Rth, decide_True by reflexivity; reflexivity).
      assert (Hpno : p ∉ own_tok t th). { intros H. rewrite T1, Tth in I1. cbn in I1. apply NoDup_cons in I1 as [H' _]. apply H'. apply elem_of_app. left. eapply own_tok_in; exact H. }
      assert (Hfind : exists m, (p, m) ∈ m_ptrs (alloc_mgr s t)). { assert (H : p ∈ keys (m_ptrs (alloc_mgr s t))) by (rewrite Hrk; left). apply elem_of_list_fmap in H as ([q m] & -> & H). eauto. }
      destruct Hfind as [m Hfind].
      assert (Her : m_ptrs (alloc_mgr s t) ≡ₚ (p, m) :: map_erase (m_ptrs (alloc_mgr s t)) p \/ exists m', m_ptrs (alloc_mgr s t) ≡ₚ (p, m') :: map_erase (m_ptrs (alloc_mgr s t)) p).
      { right. clear -Hfind. induction (m_ptrs (alloc_mgr s t)) as [|[q n] l IH]; [inversion Hfind|]. cbn [map_erase]. destruct (Z.eqb_spec p q) as [->|Hne]; [exists n; reflexivity|].
        apply elem_of_cons in Hfind as [[= -> ->] |H]; [contradiction|]. destruct (IH H) as [m' E]. exists m'. rewrite perm_swap. apply perm_skip. exact E. }
      assert (Her' : exists m', m_ptrs (alloc_mgr s t) ≡ₚ (p, m') :: map_erase (m_ptrs (alloc_mgr s t)) p) by (destruct Her as [Her|Her]; [eexists; exact Her|exact Her]). clear Her. destruct Her' as [m' Her].
      split; cbn [fst snd set_alloc heap alloc_mgr].
      + rewrite ET. exact I1.
      + intros q. rewrite ET. apply I2.
      + exact I3.
      + apply (pc_update s); [exact I4|]. cbn. split; [exact Hp|]. split; [discriminate|]. split; [|discriminate]. intros q t' [H|H]; [|discriminate]. apply (Ho q t'). auto.
      + intros t'. destruct (K t') as [K1 K2]. rewrite K2. unfold rtok at 1. cbn. destruct (decide (t' = t)) as [->|Hne].
        * cbn. apply (Permutation_cons_inv (a := p)). pose proof (fmap_Permutation fst _ _ Her) as H. cbn in H. rewrite <- H, Hrk. reflexivity.
        * rewrite I5, K1, Rth. rewrite decide_False by congruence. reflexivity.
      + intros t'. specialize (I6 t'). unfold allocation_count, deallocation_count in *. cbn. destruct (decide (t' = t)) as [->|Hne]; [|exact I6]. cbn. rewrite (Permutation_length Her) in I6. cbn [length] in I6. lia.
      + rewrite ET. exact I7.
    - (* free *)
      assert (Tth : tok th = p :: (mt_own th).*1) by (unfold tok; rewrite Epc; reflexivity).
      assert (Rth : forall t', rtok t' th = own_tok t' th) by (intros t'; unfold rtok; rewrite Epc; reflexivity).
      assert (Hph : p ∈ keys (heap s)). { apply I2. rewrite T1, Tth. left. }
      unfold backend_free in Hst. destruct (map_find (heap s) p) as [m|] eqn:Ef; [|apply map_find_none in Ef; contradiction]. injection Hst as <- <-.
      pose proof (hrep_keys _ I3) as NDh. apply (map_find_elem _ _ _ NDh) in Ef. pose proof (map_erase_perm _ _ _ NDh Ef) as Her.
      assert (ET : ls ≫= tok ≡ₚ p :: (<[i := mt_done th (mt_own th)]> ls ≫= tok)) by (rewrite T1, T2, Tth; reflexivity).
      rewrite ET in I1, I7. apply NoDup_cons in I1 as [N1 N2].
      assert (Hkk : keys (map_erase (heap s) p) ≡ₚ <[i := mt_done th (mt_own th)]> ls ≫= tok).
      { apply (Permutation_cons_inv (a := p)). rewrite <- I7. pose proof (fmap_Permutation fst _ _ Her) as H. cbn in H. symmetry. exact H. }
      split; cbn [fst snd set_heap heap alloc_mgr].
      + exact N2.
      + intros q. rewrite Hkk. auto.
      + assert (Hel : forall q m', (q, m') ∈ map_erase (heap s) p -> (q, m') ∈ heap s) by (intros q m' H; rewrite Her; right; exact H). split.
        * intros q m' H. apply (hr_pos _ I3 _ _ (Hel _ _ H)).
        * pose proof (hr_nodup _ I3) as ND. rewrite Her in ND. apply NoDup_cons in ND. tauto.
        * intros q m1 q' m2 H1 H2. apply (hr_disj _ I3); apply Hel; assumption.
      + apply (pc_update s); [exact I4|]. cbn. split; [apply prog_ok_tail; exact Hp|]. split; [discriminate|]. split; [|discriminate]. intros q t' [H|H]; [|discriminate]. apply (Ho q t'). auto.
      + intros t'. destruct (K t') as [K1 K2]. rewrite K2. rewrite I5, K1, Rth. reflexivity.
      + exact I6.
      + exact Hkk.
    - exfalso. eapply Hdf. reflexivity.
  Qed.

  Lemma cinv_init progs : owner_frees progs -> cinv (mem0, mem_threads progs).
  Proof.
    intros H. assert (E : mem_threads progs ≫= tok = [] /\ forall t, mem_threads progs ≫= rtok t = []).
    { unfold mem_threads. clear H. induction progs as [|p l [IH1 IH2]]; [split; reflexivity|]. split; [exact IH1|intros t; exact (IH2 t)]. }
    destruct E as [E1 E2]. split; cbn [fst snd].
    - rewrite E1. constructor.
    - intros p. rewrite E1. intros Hp. inversion Hp.
    - split; [intros q s Hq; inversion Hq|constructor|intros q s q' s' Hq; inversion Hq].
    - intros th Hth. apply elem_of_list_fmap in Hth as (p & -> & Hp). cbn. split; [intros op Hop; exact (H p op Hp Hop)|]. split; [discriminate|]. split; [|discriminate]. intros q t [Hq|Hq]; [inversion Hq|discriminate].
    - intros t. rewrite E2. reflexivity.
    - intros t. reflexivity.
    - rewrite E1. reflexivity.
  Qed.
  Lemma cinv_reach progs c : owner_frees progs -> reach (mem_tstep malloc) (mem0, mem_threads progs) c -> cinv c.
  Proof using All. intros H Hr. eapply (invariant (mem_tstep malloc) cinv); [intros c1 c2 H1 H2; eapply cinv_step; eassumption|apply cinv_init; exact H|exact Hr]. Qed.

  Lemma idle_owned ls t : (forall th, th ∈ ls -> mt_pc th = PIdle) -> ls ≫= rtok t = owned ls t.
  Proof.
    intros H. unfold owned. induction ls as [|th ls IH]; [reflexivity|]. change ((th :: ls) ≫= rtok t) with (rtok t th ++ (ls ≫= rtok t)). rewrite IH by (intros; apply H; right; assumption).
    unfold rtok at 1. rewrite (H th) by left. reflexivity.
  Qed.
  Lemma no_double_free progs s ls : owner_frees progs -> reach (mem_tstep malloc) (mem0, mem_threads progs) (s, ls) ->
    (forall th p, th ∈ ls -> mt_pc th <> PDoubleFree p) /\
    ((forall th, th ∈ ls -> mt_pc th = PIdle) -> forall t, allocation_count s t - deallocation_count s t = Z.of_nat (length (owned ls t))).
  Proof using All.
    intros Ho Hr. pose proof (cinv_reach _ _ Ho Hr) as I. split.
    - intros th p Hth. destruct (ci_pc _ I th Hth) as (_ & H & _). apply H.
    - intros Hidle t. pose proof (ci_count _ I t) as Hc. pose proof (ci_keys _ I t) as Hk. cbn [fst snd] in *. rewrite Hc. rewrite (idle_owned _ _ Hidle) in Hk. rewrite <- (Permutation_length Hk), fmap_length. reflexivity.
  Qed.
End conc.
