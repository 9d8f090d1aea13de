(** The concurrent queue: pushes at the end, pops at the front of a deque, without lapping the ring. *)
From Verif Require Import Base Conc AtomicModel SlotModel SlotSpec SlotProofs VectorModel DequeModel DequeSpec DequeProofs DequeConcProofs FifoSpec FifoProofs.

Section counts.
  Context {T : Type}.
  (** pushes a thread has still to claim a slot for *)
  Definition todo (t : qthread T) : Z := Z.of_nat (length (filter is_push_call (q_prog t))) - (if pushing t then match claimed_at (q_pc t) with Some _ => 1 | None => 0 end else 0).
  Lemma todo_nonneg t : 0 <= todo t.
  Proof. unfold todo, pushing. destruct (q_prog t) as [|[k x|k] rest]; [cbn; lia| |cbn; lia]. rewrite filter_cons, decide_True by exact Logic.I. cbn [length]. destruct (claimed_at (q_pc t)); lia. Qed.
  Lemma pend_todo t : pend t <= todo t.
  Proof.
    pose proof (todo_nonneg t) as H. unfold pend. destruct (q_pc t) as [|n| | | | | | | | ] eqn:E; try exact H. destruct n as [|[|[|]]]; try exact H.
    unfold todo, pushing in *. rewrite E in *. cbn [claimed_at] in *. destruct (q_prog t) as [|[k x|k] rest]; try lia. rewrite filter_cons, decide_True in * by exact Logic.I. cbn [length] in *. lia.
  Qed.
  Lemma sumZ_le (f g : qthread T -> Z) ls : (forall t, t ∈ ls -> f t <= g t) -> sumZ f ls <= sumZ g ls.
  Proof. induction ls as [|t ls IH]; intros H; [reflexivity|]. rewrite !sumZ_cons. pose proof (H t ltac:(left)). specialize (IH (fun u Hu => H u ltac:(right; exact Hu))). lia. Qed.
  Lemma sum_todo_start (progs : list (list (qop T))) : sumZ todo (q_start progs) = Z.of_nat (push_calls progs).
  Proof.
    unfold q_start, push_calls. induction progs as [|p progs IH]; [reflexivity|]. cbn [fmap list_fmap concat]. rewrite sumZ_cons, IH, filter_app, app_length. unfold todo, pushing. cbn [q_prog q_pc claimed_at].
    destruct p as [|[]]; lia.
  Qed.
  (** the pops between their two accesses to the counters are fewer than the threads that pop, if thread [i] is at another point of a pop *)
  Lemma poppers (progs : list (list (qop T))) (f : qthread T -> Z) : forall ls, length ls = length progs ->
    (forall j t prog, ls !! j = Some t -> progs !! j = Some prog -> f t <= Z.b2z (pops prog)) -> forall i t, ls !! i = Some t ->
    (forall prog, progs !! i = Some prog -> f t + 1 <= Z.b2z (pops prog)) -> sumZ f ls + 1 <= Z.of_nat (popping_threads progs).
  Proof.
    induction progs as [|p progs IH]; intros ls HL Hall i t Hi Ht.
    - destruct ls; [discriminate|discriminate].
    - destruct ls as [|t0 ls]; [discriminate|]. rewrite sumZ_cons. unfold popping_threads. rewrite filter_cons.
      assert (Hmono : forall ls, length ls = length progs -> (forall j t prog, ls !! j = Some t -> progs !! j = Some prog -> f t <= Z.b2z (pops prog)) -> sumZ f ls <= Z.of_nat (popping_threads progs)).
      { clear. induction progs as [|p progs IH]; intros [|t ls] HL H; try discriminate HL; [cbn; lia|]. rewrite sumZ_cons. unfold popping_threads. rewrite filter_cons.
        pose proof (H 0%nat t p eq_refl eq_refl) as H0. specialize (IH ls ltac:(cbn in HL; lia) (fun j t0 prog => H (S j) t0 prog)). unfold popping_threads in IH.
        destruct (decide (pops p = true)) as [E|E]; [rewrite E in H0; cbn [length]; cbn in H0; lia|]. destruct (pops p); [congruence|]. cbn in H0. lia. }
      destruct i as [|i].
      + injection Hi as ->. specialize (Ht p eq_refl). specialize (Hmono ls ltac:(cbn in HL; lia) (fun j t0 prog => Hall (S j) t0 prog)). unfold popping_threads in Hmono.
        destruct (decide (pops p = true)) as [E|E]; [rewrite E in Ht; cbn [length]; cbn in Ht; lia|]. destruct (pops p); [congruence|]. cbn in Ht. lia.
      + specialize (IH ls ltac:(cbn in HL; lia) (fun j t0 prog => Hall (S j) t0 prog) i t Hi Ht). pose proof (Hall 0%nat t0 p eq_refl eq_refl) as H0. unfold popping_threads in IH.
        destruct (decide (pops p = true)) as [E|E]; [rewrite E in H0; cbn [length]; cbn in H0; lia|]. destruct (pops p); [congruence|]. cbn in H0. lia.
  Qed.
  Lemma two_poppers (progs : list (list (qop T))) : forall i j p q, i <> j -> progs !! i = Some p -> progs !! j = Some q -> pops p = true -> pops q = true -> (2 <= popping_threads progs)%nat.
  Proof.
    assert (H1 : forall (progs : list (list (qop T))) i p, progs !! i = Some p -> pops p = true -> (1 <= popping_threads progs)%nat).
    { clear. induction progs as [|q progs IH]; intros i p Hi Hp; [discriminate|]. unfold popping_threads. rewrite filter_cons. destruct i as [|i].
      - injection Hi as ->. rewrite decide_True by exact Hp. cbn. lia.
      - specialize (IH i p Hi Hp). unfold popping_threads in IH. destruct (decide _); cbn [length]; lia. }
    induction progs as [|r progs IH]; intros i j p q Hne Hi Hj Hp Hq; [discriminate|]. unfold popping_threads. rewrite filter_cons. destruct i as [|i], j as [|j]; [congruence| | |].
    - injection Hi as ->. rewrite decide_True by exact Hp. cbn [length]. specialize (H1 progs j q Hj Hq). unfold popping_threads in H1. lia.
    - injection Hj as ->. rewrite decide_True by exact Hq. cbn [length]. specialize (H1 progs i p Hi Hp). unfold popping_threads in H1. lia.
    - specialize (IH i j p q ltac:(congruence) Hi Hj Hp Hq). unfold popping_threads in IH. destruct (decide _); cbn [length]; lia.
  Qed.
End counts.

Section queue.
  Context {T : Type} (cap b : nat) (l : list T) (Hb : (b < cap)%nat) (Hcap : Z.of_nat cap <= INT_MAX) (Hl : (length l <= cap)%nat).
  Context (progs : list (list (qop T))) (Hq : forall p op, p ∈ progs -> op ∈ p -> queue_call op).
  Context (Hroom : (length l + push_calls progs <= cap)%nat).
  Notation step := (qstep (T:=T) (dctl cap)).
  Notation idx := (ring_dist cap b).
  Notation slot := (ring_pos cap b).
  Notation np := (popping_threads progs).
  Notation start := (deq_conc_start cap b l, q_start progs).
  Notation ccore := (core (C:=dcnt) cap idx slot progs).
  Implicit Types (s : qshared T dcnt) (ls : list (qthread T)) (W : list T) (P : list nat) (H : list (nat * (qop T * qres T))).

  Definition total W P ls : Z := Z.of_nat (length W) - Z.of_nat (length P) + sumZ pend ls.
  Record qinv s ls W P H late : Prop := {
    v_core : ccore s ls W P H;
    v_end : c_end (q_c s) = Z.of_nat ((b + length W) mod cap);
    v_begin : c_begin (q_c s) = Z.of_nat ((b + length P) mod cap);
    v_room : Z.of_nat (length W) + sumZ todo ls <= Z.of_nat cap;
    v_n : c_n (q_c s) <= total W P ls /\ 0 <= total W P ls /\ (late = false -> c_n (q_c s) = total W P ls);
    v_fifo : fifo np false l H late (drop (length P) W);
    v_one : np = 1%nat -> late = false /\ forall t k rest, t ∈ ls -> q_pc t = QCtl 1 -> q_prog t = QPop k :: rest -> 0 < c_n (q_c s)
  }.
  Lemma Hidx : forall k, (k < cap)%nat -> idx (slot k) = k /\ (slot k < cap)%nat.
  Proof using Hb. clear -Hb. intros k Hk. split; [apply dist_pos; assumption|apply ring_pos_lt; lia]. Qed.
  Lemma slot_mod k : (k < cap)%nat -> Z.to_nat (Z.of_nat ((b + k) mod cap)) = slot k.
  Proof using Hb.
    clear -Hb. intros Hk. rewrite Nat2Z.id. unfold ring_pos. destruct (Nat.ltb_spec (b + k) cap) as [H|H]; [apply Nat.mod_small; exact H|].
    replace (b + k)%nat with (b + k - cap + 1 * cap)%nat by lia. rewrite Nat.mod_add by lia. rewrite Nat.mod_small by lia. lia.
  Qed.
  Lemma inc_mod_nat k : inc_mod (Z.of_nat cap) (Z.of_nat ((b + k) mod cap)) = Z.of_nat ((b + S k) mod cap).
  Proof using Hb Hcap.
    clear -Hb Hcap. rewrite !Nat2Z.inj_mod. rewrite inc_mod_mod by lia. f_equal. lia.
  Qed.

  Lemma qinv_start : qinv (deq_conc_start cap b l) (q_start progs) l [] [] false.
  Proof using All.
    split.
    - split.
      + unfold q_start. rewrite fmap_length. reflexivity.
      + intros p x Hp Hd. rewrite (proj1 (dstart_lookup cap b l p Hp)) in Hd. exact Hd.
      + intros j t Hj. unfold q_start in Hj. rewrite list_lookup_fmap in Hj. destruct (progs !! j) as [pr|] eqn:E; [|discriminate]. injection Hj as <-. exists []. cbn. rewrite E.
        split; [reflexivity|]. split; [reflexivity|]. unfold emitted, claim_ok. cbn. destruct pr as [|[]]; split; (reflexivity || exact Logic.I).
      + intros k j _ Hj. discriminate.
      + intros x Hx. inversion Hx.
      + cbn. lia.
    - reflexivity.
    - cbn. rewrite Nat.add_0_r, Nat.mod_small by exact Hb. reflexivity.
    - rewrite sum_todo_start. lia.
    - unfold total. rewrite sumZ_zero; [cbn; lia|]. intros t Ht. unfold q_start in Ht. apply elem_of_list_fmap in Ht as (pr & -> & _). reflexivity.
    - cbn. auto.
    - intros _. split; [reflexivity|]. intros t k rest Ht. unfold q_start in Ht. apply elem_of_list_fmap in Ht as (pr & -> & _). discriminate.
  Qed.

  Lemma qinv_step s ls W P H late s' ls' : sfacts cap s ls -> qinv s ls W P H late -> cstep step (s, ls) (s', ls') ->
    exists W' P' H2 late', qinv s' ls' W' P' (H ++ H2) late'.
  Proof using All.
    intros F V Hst. inversion Hst as [s0 ls0 i t s1 t' Hi E]; subst. clear Hst. pose proof (v_core _ _ _ _ _ _ V) as K. pose proof (lookup_lt_Some _ _ _ Hi) as Hlt.
    pose proof (elem_of_list_lookup_2 _ _ _ Hi) as Hin. destruct (v_n _ _ _ _ _ _ V) as (N1 & N2 & N3). pose proof (v_room _ _ _ _ _ _ V) as VR.
    destruct (f_tok _ _ _ F t Hin) as [_ Htk].
    assert (ONE : forall s2 t2, c_n (q_c s) <= c_n (q_c s2) \/ (exists k rest, q_prog t = QPop k :: rest) -> (q_pc t2 = QCtl 1 -> 0 < c_n (q_c s2)) ->
      np = 1%nat -> late = false /\ forall u k rest, u ∈ <[i := t2]> ls -> q_pc u = QCtl 1 -> q_prog u = QPop k :: rest -> 0 < c_n (q_c s2)).
    { intros s2 t2 Hc Ht2 H1. destruct (v_one _ _ _ _ _ _ V H1) as [O1 O2]. split; [exact O1|]. intros u k rest Hu Hpu Hgu. apply elem_of_list_lookup in Hu as [j Hj].
      destruct (decide (i = j)) as [<-|Hne]; [rewrite list_lookup_insert in Hj by exact Hlt; injection Hj as <-; auto|]. rewrite list_lookup_insert_ne in Hj by exact Hne.
      destruct Hc as [Hc|(k' & rest' & Hgt)]; [pose proof (O2 u k rest (elem_of_list_lookup_2 _ _ _ Hj) Hpu Hgu); lia|]. exfalso.
      destruct (k_thr _ _ _ _ _ _ _ _ _ K i t Hi) as (p1 & Hp1 & _). destruct (k_thr _ _ _ _ _ _ _ _ _ K j u Hj) as (p2 & Hp2 & _). rewrite Hgt in Hp1. rewrite Hgu in Hp2.
      pose proof (two_poppers progs i j _ _ Hne Hp1 Hp2) as H2. unfold pops in H2. rewrite !existsb_app in H2. cbn in H2. rewrite !orb_true_r in H2. specialize (H2 eq_refl eq_refl). lia. }
    destruct (claimed_at (q_pc t)) as [p|] eqn:Ec.
    { (* the loop on the slot *)
      destruct (core_local _ cap idx slot Hidx progs s ls W P H i t s' t' p F K Hi Ec E) as (K' & Hc & Hpc). exists W, P, [], late. rewrite app_nil_r.
      assert (Etodo : todo t' = todo t /\ pend t' = 0 /\ pend t = 0).
      { assert (pend t = 0) by (unfold pend; destruct (q_pc t); try reflexivity; discriminate). destruct Hpc as [[P1 P2]|[P1 P2]].
        - unfold todo, pend, pushing. rewrite P1, P2, Ec. split; [reflexivity|]. split; [|assumption]. destruct (q_pc t'); try reflexivity; discriminate.
        - unfold todo, pend, pushing. rewrite P1, P2, Ec. split; [|split; [reflexivity|assumption]]. cbn [claimed_at]. unfold qstep in E. destruct (q_prog t) as [|[k x|k] rest]; [discriminate| |].
          + rewrite filter_cons, decide_True by exact Logic.I. cbn [tail length]. destruct rest as [|[]]; lia.
          + rewrite filter_cons, decide_False by auto. cbn [tail]. destruct rest as [|[]]; lia. }
      destruct Etodo as (E1 & E2 & E3). split; [exact K'| | | | | |].
      - rewrite Hc. apply V.
      - rewrite Hc. apply V.
      - rewrite (sumZ_insert _ _ _ _ _ Hi). lia.
      - unfold total in *. rewrite (sumZ_insert _ _ _ _ _ Hi), Hc. rewrite E2, E3. split; [lia|]. split; [lia|]. intros HL. specialize (N3 HL). lia.
      - apply V.
      - apply ONE; [rewrite Hc; left; lia|]. intros X. destruct Hpc as [[_ P2]|[_ P2]]; rewrite X in P2; discriminate. }
    unfold qstep in E. destruct (q_prog t) as [|op rest] eqn:Epr; [discriminate|].
    destruct (k_thr _ _ _ _ _ _ _ _ _ K i t Hi) as (past & Hpr & HL & _). rewrite Epr in Hpr.
    assert (Hop : queue_call op). { apply (Hq _ op (elem_of_list_lookup_2 _ _ _ Hpr)). apply elem_of_app. right. left. }
    assert (Hpops : forall k, op = QPop k -> forall prog, progs !! i = Some prog -> pops prog = true).
    { intros k -> prog Hg. rewrite Hpr in Hg. injection Hg as <-. unfold pops. rewrite existsb_app. cbn. apply orb_true_r. }
    assert (Hpend1 : forall j u prog, ls !! j = Some u -> progs !! j = Some prog -> - pend u <= Z.b2z (pops prog)).
    { intros j u prog Hu Hg. destruct (k_thr _ _ _ _ _ _ _ _ _ K j u Hu) as (past' & Hpr' & _). rewrite Hg in Hpr'. injection Hpr' as ->.
      assert (0 <= Z.b2z (pops (past' ++ q_prog u))) by (destruct (pops _); cbn; lia). unfold pend. destruct (q_pc u) as [|[|[|[|]]]| | | | | | | |] eqn:Eu; try lia.
      destruct (f_tok _ _ _ F u (elem_of_list_lookup_2 _ _ _ Hu)) as [_ Htu]. rewrite Eu in Htu. unfold pushing. destruct (q_prog u) as [|[k x|k] r0]; [destruct Htu; congruence|lia|].
      unfold pops. rewrite existsb_app. cbn. rewrite orb_true_r. cbn. lia. }
    assert (Sopp : forall ls0, sumZ (fun u : qthread T => - pend u) ls0 = - sumZ pend ls0).
    { induction ls0 as [|u ls0 IH]; [reflexivity|]. rewrite !sumZ_cons, IH. lia. }
    (* a pop is refused only if few elements are left *)
    assert (Hfew : forall k, op = QPop k -> pend t = 0 -> c_n (q_c s) <= 0 -> late = true \/ (length (drop (length P) W) < np)%nat).
    { intros k Ek Ep Hn. destruct late; [left; reflexivity|right]. specialize (N3 eq_refl). rewrite drop_length. unfold total in N3.
      pose proof (poppers progs (fun u => - pend u) ls (k_len _ _ _ _ _ _ _ _ _ K) Hpend1 i t Hi) as Hb1. rewrite Sopp in Hb1.
      assert (forall prog, progs !! i = Some prog -> - pend t + 1 <= Z.b2z (pops prog)) as Hb2 by (intros prog Hg; rewrite (Hpops k Ek prog Hg); cbn; lia). specialize (Hb1 Hb2).
      assert (Hone : 1 <= Z.of_nat np).
      { pose proof (poppers progs (fun _ => 0) ls (k_len _ _ _ _ _ _ _ _ _ K) (fun j u prog _ _ => ltac:(destruct (pops prog); cbn; lia)) i t Hi (fun prog Hg => ltac:(rewrite (Hpops k Ek prog Hg); cbn; lia))) as Hz.
        rewrite sumZ_zero in Hz by reflexivity. lia. }
      lia. }
    (* a push is never refused *)
    assert (Hfits : forall k x, op = QPush k x -> q_pc t = QCtl 0 \/ q_pc t = QCtl 1 -> c_n (q_c s) < Z.of_nat cap).
    { intros k x Ek Hp. assert (pend t + 1 <= todo t).
      { unfold pend, todo, pushing. rewrite Epr, Ek. rewrite filter_cons, decide_True by exact Logic.I. cbn [length]. destruct Hp as [-> | ->]; cbn [claimed_at]; lia. }
      assert (sumZ pend ls + 1 <= sumZ todo ls); [|unfold total in N1; lia].
      pose proof (sumZ_ge_elem (fun u => todo u + - pend u) ls i t (fun u _ => ltac:(pose proof (pend_todo u); cbn; lia)) Hi) as Hd. cbn in Hd. rewrite sumZ_add, Sopp in Hd. lia. }
    (* a step that only moves on *)
    assert (GO : forall c n n', s' = with_c s c -> t' = goto t (QCtl n') -> (q_pc t = QIdle /\ n' = 0%nat /\ c = q_c s \/ q_pc t = QCtl n) ->
      c_end c = c_end (q_c s) -> c_begin c = c_begin (q_c s) -> c_n c = c_n (q_c s) + (pend t' - pend t) -> 0 <= total W P ls + (pend t' - pend t) -> (c_n (q_c s) <= c_n c \/ exists k, op = QPop k) -> (n' = 1%nat -> (exists k x, op = QPush k x) \/ 0 < c_n c) ->
      exists W' P' H2 late', qinv s' (<[i := t']> ls) W' P' (H ++ H2) late').
    { intros c n n' -> -> Hpc C1 C2 C3 C4 C5 C6. exists W, P, [], late. rewrite app_nil_r.
      assert (ET : todo (goto t (QCtl n')) = todo t) by (unfold todo, pushing; cbn [q_prog q_pc goto]; rewrite Epr, Ec; reflexivity). split.
      - apply core_go; assumption.
      - cbn. rewrite C1. apply V.
      - cbn. rewrite C2. apply V.
      - rewrite (sumZ_insert _ _ _ _ _ Hi). lia.
      - unfold total in *. rewrite (sumZ_insert _ _ _ _ _ Hi). cbn [q_c with_c]. split; [lia|]. split; [lia|]. intros Hz. specialize (N3 Hz). lia.
      - apply V.
      - destruct op as [k x|k]; [|apply ONE; [right; eauto|]; intros [= ->]; destruct (C6 eq_refl) as [(? & ? & ?)|]; [discriminate|assumption]].
        intros H1. destruct (v_one _ _ _ _ _ _ V H1) as [O1 O2]. split; [exact O1|]. intros u k' rest' Hu Hpu Hgu. destruct C5 as [C5|(? & ?)]; [|discriminate]. cbn [q_c with_c].
        apply elem_of_list_lookup in Hu as [j Hj]. destruct (decide (i = j)) as [<-|Hne]; [rewrite list_lookup_insert in Hj by exact Hlt; injection Hj as <-; cbn in Hgu; congruence|].
        rewrite list_lookup_insert_ne in Hj by exact Hne. pose proof (O2 u k' rest' (elem_of_list_lookup_2 _ _ _ Hj) Hpu Hgu). lia. }
    destruct (q_pc t) as [|n| | | | | | | |] eqn:Epc; try discriminate Ec.
    { injection E as <- <-. apply (GO (q_c s) 0%nat 0%nat); auto; [destruct s; reflexivity|unfold pend; rewrite Epc; cbn; lia|unfold pend; rewrite Epc; cbn; lia|left; lia|discriminate]. }
    destruct Htk as [Hn2 _]. destruct n as [|[|n]].
    - (* check of the size *)
      cbn [dctl] in E. destruct (clamp_size (Z.of_nat cap) (c_n (q_c s)) =? _) eqn:Ecl.
      + injection E as <- <-. destruct op as [k x|k].
        * exfalso. assert (is_push k = true) as Hk by (destruct k; (reflexivity || contradiction)). cbn [kind_of] in Ecl. rewrite Hk in Ecl. apply Z.eqb_eq in Ecl. pose proof (Hfits k x eq_refl (or_introl eq_refl)) as Hf.
          unfold clamp_size in Ecl. destruct (c_n (q_c s) <? 0); [lia|]. destruct (Z.ltb_spec (Z.of_nat cap) (c_n (q_c s))); lia.
        * assert (is_push k = false) as Hk by (destruct k; (reflexivity || contradiction)). cbn [kind_of] in Ecl. rewrite Hk in Ecl. apply Z.eqb_eq in Ecl.
          assert (Hn0 : c_n (q_c s) <= 0). { unfold clamp_size in Ecl. destruct (Z.ltb_spec (c_n (q_c s)) 0); [lia|]. destruct (Z.ltb_spec (Z.of_nat cap) (c_n (q_c s))); lia. }
          exists W, P, [(i, (QPop k, Refused))], late. replace s with (with_c s (q_c s)) by (destruct s; reflexivity). split.
          -- assert (Ec' : claimed_at (q_pc t) = None) by (rewrite Epc; reflexivity). exact (core_reject cap idx slot progs s ls W P H i t (QPop k) rest Refused (q_c s) K Hi Ec' Epr).
          -- apply V.
          -- apply V.
          -- rewrite (sumZ_insert _ _ _ _ _ Hi). assert (todo (finish t Refused) = todo t); [|lia]. unfold todo, pushing. cbn [q_prog q_pc finish]. rewrite ?Epr, ?Epc. cbn [tail claimed_at]. rewrite filter_cons, decide_False by auto. destruct rest as [|[]]; lia.
          -- unfold total in *. rewrite (sumZ_insert _ _ _ _ _ Hi). assert (pend (finish t Refused) = 0 /\ pend t = 0) as [-> ->] by (unfold pend; cbn [finish q_pc]; rewrite Epc; auto). split; [cbn; lia|]. split; [lia|]. intros Hz. specialize (N3 Hz). cbn. lia.
          -- eapply fifo_snoc; [apply V|]. cbn. split; [|auto]. apply (Hfew k eq_refl); [unfold pend; rewrite Epc; reflexivity|exact Hn0].
          -- apply ONE; [left; cbn; lia|]. discriminate.
      + injection E as <- <-. apply (GO (q_c s) 0%nat 1%nat); auto; [unfold pend; rewrite Epc; cbn; lia|unfold pend; rewrite Epc; cbn; lia|left; lia|].
        intros _. destruct op as [k x|k]; [left; eauto|right]. assert (is_push k = false) as Hk by (destruct k; (reflexivity || contradiction)). cbn [kind_of] in Ecl. rewrite Hk in Ecl. apply Z.eqb_neq in Ecl.
        unfold clamp_size in Ecl. destruct (Z.ltb_spec (c_n (q_c s)) 0); [congruence|]. destruct (Z.ltb_spec (Z.of_nat cap) (c_n (q_c s))); lia.
    - (* the size is changed *)
      cbn [dctl] in E. destruct op as [k x|k].
      + assert (is_push k = true) as Hk by (destruct k; (reflexivity || contradiction)). cbn [kind_of] in E. rewrite Hk in E. pose proof (Hfits k x eq_refl (or_intror eq_refl)) as Hf.
        rewrite (proj2 (Z.ltb_lt _ _) Hf) in E. injection E as <- <-.
        assert (EP : pend (goto t (QCtl 2)) = 1 /\ pend t = 0) by (unfold pend, pushing; cbn [q_pc q_prog goto]; rewrite Epr, Epc; auto). destruct EP as [EP1 EP2].
        eapply (GO _ 1%nat 2%nat); [reflexivity|reflexivity|right; reflexivity|reflexivity|reflexivity|cbn [c_n]; lia|lia|left; cbn [c_n]; lia|discriminate].
      + assert (is_push k = false) as Hk by (destruct k; (reflexivity || contradiction)). cbn [kind_of] in E. rewrite Hk in E.
        assert (EP0 : pend t = 0) by (unfold pend; rewrite Epc; auto). destruct (Z.ltb_spec 0 (c_n (q_c s))) as [Hn0|Hn0].
        * injection E as <- <-. assert (EP1 : pend (goto t (QCtl 2)) = -1) by (unfold pend, pushing; cbn [q_pc q_prog goto]; rewrite Epr; auto).
          eapply (GO _ 1%nat 2%nat); [reflexivity|reflexivity|right; reflexivity|reflexivity|reflexivity|cbn [c_n]; lia|lia|right; eauto|discriminate].
        * injection E as <- <-. exists W, P, [(i, (QPop k, OutOfBounds))], true. split.
          -- assert (Ec' : claimed_at (q_pc t) = None) by (rewrite Epc; reflexivity). exact (core_reject cap idx slot progs s ls W P H i t (QPop k) rest OutOfBounds _ K Hi Ec' Epr).
          -- apply V.
          -- apply V.
          -- rewrite (sumZ_insert _ _ _ _ _ Hi). assert (todo (finish t OutOfBounds) = todo t); [|lia]. unfold todo, pushing. cbn [q_prog q_pc finish]. rewrite ?Epr, ?Epc. cbn [tail claimed_at]. rewrite filter_cons, decide_False by auto. destruct rest as [|[]]; lia.
          -- unfold total in *. rewrite (sumZ_insert _ _ _ _ _ Hi). assert (pend (finish t OutOfBounds) = 0) as -> by reflexivity. rewrite EP0. split; [cbn; lia|]. split; [lia|]. discriminate.
          -- eapply fifo_snoc; [apply V|]. cbn. split; [|auto]. apply (Hfew k eq_refl EP0 Hn0).
          -- intros H1. pose proof (proj2 (v_one _ _ _ _ _ _ V H1) t k rest Hin Epc Epr). lia.
    - (* a slot is claimed *)
      assert (n = 0)%nat as -> by lia. cbn [dctl] in E.
      assert (Hle : sumZ pend ls - pend t <= sumZ todo ls - todo t).
      { pose proof (sumZ_ge_elem (fun u => todo u + - pend u) ls i t (fun u _ => ltac:(pose proof (pend_todo u); cbn; lia)) Hi) as Hd. cbn in Hd. rewrite sumZ_add, Sopp in Hd. lia. }
      destruct op as [k x|k]; destruct k; try contradiction; cbn [kind_of] in E; injection E as <- <-.
      + assert (Htd : todo t = Z.of_nat (length (filter is_push_call rest)) + 1 /\ pend t = 1).
        { unfold todo, pend, pushing. rewrite Epr, Epc. cbn [claimed_at]. rewrite filter_cons, decide_True by exact Logic.I. cbn [length]. split; [lia|reflexivity]. }
        destruct Htd as [Htd Hpd].
        assert (Hpos : 0 <= sumZ todo ls - todo t).
        { pose proof (sumZ_ge_elem todo ls i t (fun u _ => todo_nonneg u) Hi). lia. }
        assert (HW : (length W < cap)%nat) by lia.
        rewrite (v_end _ _ _ _ _ _ V), slot_mod, inc_mod_nat by exact HW.
        destruct (core_push (dctl cap) cap idx slot Hidx progs s ls W P H i t KPushBack x rest
          {| c_n := c_n (q_c s); c_begin := c_begin (q_c s); c_end := Z.of_nat ((b + S (length W)) mod cap) |} K Hi ltac:(rewrite Epc; reflexivity) Epr HW) as (H2 & K' & HE).
        exists (W ++ [x]), P, ((i, (QPush KPushBack x, Pushed x)) :: H2), late. split.
        * exact K'.
        * cbn. rewrite app_length. cbn. repeat f_equal. lia.
        * apply V.
        * rewrite (sumZ_insert _ _ _ _ _ Hi), app_length. cbn [length]. assert (todo (goto t (QTry (slot (length W)))) = todo t - 1); [|lia].
          unfold todo at 1. unfold pushing. cbn [q_prog q_pc goto claimed_at]. rewrite Epr, filter_cons, decide_True by exact Logic.I. cbn [length]. lia.
        * unfold total in *. rewrite (sumZ_insert _ _ _ _ _ Hi), app_length. cbn [length]. assert (pend (goto t (QTry (slot (length W)))) = 0) as -> by reflexivity. cbn [q_c with_c c_n]. split; [lia|]. split; [lia|]. intros Hz. specialize (N3 Hz). lia.
        * destruct (decide (length P <= length W)%nat) as [HPW|HPW].
          -- rewrite lookup_ge_None_2 in HE by exact HPW. rewrite HE. eapply fifo_snoc; [apply V|]. cbn. rewrite drop_app_le by exact HPW. auto.
          -- destruct (lookup_lt_is_Some_2 P (length W) ltac:(lia)) as [j Hj]. rewrite Hj in HE. destruct HE as [k' ->].
             change ((i, (QPush KPushBack x, Pushed x)) :: [(j, (QPop k', Popped x))]) with ([(i, (QPush KPushBack x, Pushed x))] ++ [(j, (QPop k', Popped x))]). rewrite app_assoc.
             pose proof (v_fifo _ _ _ _ _ _ V) as VF. rewrite drop_ge in VF by lia. rewrite drop_ge by (rewrite app_length; cbn; lia).
             eapply fifo_snoc; [eapply fifo_snoc; [exact VF|]|]; cbn; auto.
        * apply ONE; [left; cbn; lia|]. discriminate.
      + assert (Hpd : pend t = -1 /\ todo t >= 0) by (split; [unfold pend, pushing; rewrite Epr, Epc; reflexivity|pose proof (todo_nonneg t); lia]). destruct Hpd as [Hpd Htd].
        assert (HP : (length P < cap)%nat) by (unfold total in N2; lia).
        rewrite (v_begin _ _ _ _ _ _ V), slot_mod, inc_mod_nat by exact HP.
        pose proof (core_pop (dctl cap) cap idx slot Hidx progs s ls W P H i t KPopFront rest
          {| c_n := c_n (q_c s); c_begin := Z.of_nat ((b + S (length P)) mod cap); c_end := c_end (q_c s) |} K Hi ltac:(rewrite Epc; reflexivity) Epr HP) as K'.
        eexists W, (P ++ [i]), _, late. split.
        * exact K'.
        * apply V.
        * cbn. rewrite app_length. cbn. repeat f_equal. lia.
        * rewrite (sumZ_insert _ _ _ _ _ Hi). assert (todo (goto t (QTry (slot (length P)))) = todo t); [|lia].
          unfold todo, pushing. cbn [q_prog q_pc goto claimed_at]. rewrite Epr. reflexivity.
        * unfold total in *. rewrite (sumZ_insert _ _ _ _ _ Hi), app_length. cbn [length]. assert (pend (goto t (QTry (slot (length P)))) = 0) as -> by reflexivity. cbn [q_c with_c c_n]. split; [lia|]. split; [lia|]. intros Hz. specialize (N3 Hz). lia.
        * rewrite app_length. cbn [length]. destruct (W !! length P) as [y|] eqn:Ey.
          -- eapply fifo_snoc; [apply V|]. cbn. rewrite (drop_S _ _ _ Ey). rewrite Nat.add_1_r. auto.
          -- rewrite app_nil_r. apply lookup_ge_None in Ey. pose proof (v_fifo _ _ _ _ _ _ V) as VF. rewrite drop_ge in VF by lia. rewrite drop_ge by lia. exact VF.
        * apply ONE; [left; cbn; lia|]. discriminate.
  Qed.

  Lemma passes_reach past c : passes step start past c -> reach step start c.
  Proof. induction 1 as [|past c c' _ IH Hs]; [apply rtc_refl|]. eapply rtc_r; eassumption. Qed.
  Lemma queue_op_wf : forall p op, p ∈ progs -> op ∈ p -> op_wf op.
  Proof using Hq. intros p op Hp Ho. specialize (Hq p op Hp Ho). destruct op as [[]|[]]; try contradiction; reflexivity. Qed.
  Lemma queue_facts s ls : reach step start (s, ls) -> sfacts cap s ls.
  Proof using Hb Hcap Hl Hq.
    intros R. destruct (dreach_inv cap b l Hb Hcap Hl progs queue_op_wf s ls R) as (sg & -> & _ & I). pose proof (inv_facts _ _ _ _ _ _ I) as [F1 F2 F3 F4]. split; assumption.
  Qed.
  Lemma queue_run past s ls : passes step start past (s, ls) -> exists W P H late, qinv s ls W P H late /\ in_order progs past ls H.
  Proof using All.
    intros R. remember (s, ls) as c eqn:Ec. revert s ls Ec. induction R as [|past c c' R IH Hs]; intros s ls Ec.
    - injection Ec as <- <-. exists l, [], [], false. split; [exact qinv_start|]. split; [exact (core_accounts _ _ _ _ _ _ _ _ _ (v_core _ _ _ _ _ _ qinv_start))|]. intros c1 Hc. inversion Hc.
    - destruct c as [s0 ls0]. subst c'. destruct (IH s0 ls0 eq_refl) as (W & P & H & late & V & A1 & A2).
      destruct (qinv_step s0 ls0 W P H late s ls (queue_facts s0 ls0 (passes_reach _ _ R)) V Hs) as (W' & P' & H2 & late' & V').
      exists W', P', (H ++ H2), late'. split; [exact V'|]. split; [exact (core_accounts _ _ _ _ _ _ _ _ _ (v_core _ _ _ _ _ _ V'))|].
      intros c1 Hc. apply elem_of_cons in Hc as [-> |Hc]; [exists H, H2; auto|]. destruct (A2 c1 Hc) as (ha & hb & -> & A3). exists ha, (hb ++ H2). rewrite app_assoc. auto.
  Qed.

  (** ** at rest *)
  Lemma fifo_late n late (M : list T) H M' : fifo n late M H true M' -> late = true \/ exists j op, (j, (op, OutOfBounds)) ∈ H.
  Proof using Type.
    revert late M. induction H as [|[j x] H IH]; intros late M; cbn [fifo]; [intros [<- _]; auto|].
    intros (late1 & M1 & Hc & Hf). destruct (IH late1 M1 Hf) as [-> |(j' & op & Hin)]; [|right; exists j', op; right; exact Hin].
    destruct x as [[k x|k] r]; destruct r; cbn in Hc; try contradiction; try (left; symmetry; apply Hc); right; exists j, (QPop k); left.
  Qed.
  Lemma zip_In {A B} (l1 : list A) (l2 : list B) x : x ∈ zip l1 l2 -> x.2 ∈ l2.
  Proof using Type. revert l2. induction l1 as [|a l1 IH]; intros [|b0 l2] Hx; try (inversion Hx; fail). cbn in Hx. apply elem_of_cons in Hx as [-> |Hx]; [left|right; apply IH; exact Hx]. Qed.
  Lemma rest_late s ls W P H late : qinv s ls W P H late -> quiescent ls -> no_oob ls -> late = false.
  Proof using Type.
    intros V Hqu Hno. destruct late; [|reflexivity]. exfalso. destruct (fifo_late _ _ _ _ _ (v_fifo _ _ _ _ _ _ V)) as [E|(j & op & Hin)]; [discriminate|].
    pose proof (k_dom _ _ _ _ _ _ _ _ _ (v_core _ _ _ _ _ _ V) _ Hin) as Hj. cbn in Hj. rewrite <- (k_len _ _ _ _ _ _ _ _ _ (v_core _ _ _ _ _ _ V)) in Hj.
    destruct (lookup_lt_is_Some_2 ls j Hj) as [t Ht]. destruct (k_thr _ _ _ _ _ _ _ _ _ (v_core _ _ _ _ _ _ V) j t Ht) as (past & _ & _ & HC & _).
    pose proof (Hqu t (elem_of_list_lookup_2 _ _ _ Ht)) as Hpc. unfold emitted in HC. rewrite Hpc in HC. cbn [claimed_at] in HC.
    assert (HC2 : calls_by j H = zip past (q_log t)) by (rewrite HC; destruct (q_prog t) as [|[]]; apply app_nil_r).
    assert (Hin2 : (op, OutOfBounds) ∈ calls_by j H).
    { unfold calls_by. apply elem_of_list_fmap. exists (j, (op, OutOfBounds)). split; [reflexivity|]. apply elem_of_list_filter. auto. }
    rewrite HC2 in Hin2. apply zip_In in Hin2. exact (Hno t (elem_of_list_lookup_2 _ _ _ Ht) Hin2).
  Qed.
  Lemma rest_state s ls W P H late : reach step start (s, ls) -> qinv s ls W P H late -> quiescent ls -> no_oob ls ->
    s = deq_conc_start cap (slot (length P)) (drop (length P) W).
  Proof using All.
    intros R V Hqu Hno. pose proof (rest_late _ _ _ _ _ _ V Hqu Hno) as ->. destruct (v_n _ _ _ _ _ _ V) as (_ & N2 & N3). specialize (N3 eq_refl). unfold total in *.
    rewrite sumZ_zero in N2, N3 by (intros t Ht; unfold pend; rewrite (Hqu t Ht); reflexivity).
    assert (HPW : (length P <= length W)%nat) by lia. pose proof (k_bnd _ _ _ _ _ _ _ _ _ (v_core _ _ _ _ _ _ V)) as [B1 B2].
    destruct (queue_facts s ls R) as [(L1 & L2 & L3) _ _ _].
    destruct (deq_quiescent cap b l Hb Hcap Hl progs queue_op_wf s ls R Hqu Hno) as (_ & _ & HS & HE).
    assert (Hsz : d_size (as_deq s) = Z.of_nat (length W) - Z.of_nat (length P)).
    { unfold d_size, v_size, v_capacity. cbn [as_deq d_v v_occ VectorModel.v_n]. rewrite L2, N3. unfold clamp_size. rewrite (proj2 (Z.ltb_ge _ 0)) by lia. rewrite (proj2 (Z.ltb_ge _ _)) by lia. lia. }
    assert (Hbg : Z.to_nat (d_begin (as_deq s)) = slot (length P) \/ length P = cap).
    { cbn [as_deq d_begin]. rewrite (v_begin _ _ _ _ _ _ V). destruct (decide (length P = cap)); [auto|left]. apply slot_mod. lia. }
    assert (Hbg2 : Z.to_nat (d_begin (as_deq s)) = slot (length P)).
    { destruct Hbg as [Hbg|Hbg]; [exact Hbg|]. cbn [as_deq d_begin]. rewrite (v_begin _ _ _ _ _ _ V), Hbg, Nat2Z.id. unfold ring_pos. rewrite (proj2 (Nat.ltb_ge _ _)) by lia.
      replace (b + cap)%nat with (b + 1 * cap)%nat by lia. rewrite Nat.mod_add by lia. rewrite Nat.mod_small by lia. lia. }
    rewrite Hbg2, Hsz in HS. assert (Hsl : (slot (length P) < cap)%nat) by (apply ring_pos_lt; lia).
    assert (Hdist : forall p, (p < cap)%nat -> (ring_dist cap (slot (length P)) p < length W - length P)%nat -> (length P + ring_dist cap (slot (length P)) p)%nat = idx p).
    { clear -Hb B1 B2 HPW. intros p Hp Hd. unfold ring_pos, ring_dist in *. destruct (Nat.ltb_spec (b + length P) cap); destruct (Nat.ltb_spec p b); repeat match goal with |- context [(?a <? ?c)%nat] => destruct (Nat.ltb_spec a c) | H : context [(?a <? ?c)%nat] |- _ => destruct (Nat.ltb_spec a c) end; lia. }
    unfold deq_conc_start. destruct s as [c d o lk0]. cbn [q_c q_data q_occ q_locks] in *. f_equal.
    - destruct c as [n0 b0 e0]. cbn [c_n c_begin c_end as_deq d_begin] in *. f_equal.
      + rewrite drop_length. lia.
      + clear -Hbg2 V. pose proof (v_begin _ _ _ _ _ _ V) as X. cbn [q_c c_begin] in X. cbn [as_deq d_begin q_c c_begin] in Hbg2. rewrite <- Hbg2. lia.
      + pose proof (v_end _ _ _ _ _ _ V) as X. cbn in X. rewrite X, drop_length. f_equal. unfold ring_pos. destruct (Nat.ltb_spec (b + length P) cap); [f_equal; lia|].
        replace (b + length W)%nat with (b + length P - cap + (length W - length P) + 1 * cap)%nat by lia. apply Nat.mod_add. lia.
    - apply list_eq. intros p. destruct (decide (p < cap)%nat) as [Hp|Hp]; [|rewrite !lookup_ge_None_2; [reflexivity|rewrite fmap_length, seq_length; lia|lia]].
      rewrite list_lookup_fmap, lookup_seq_lt by exact Hp. cbn [fmap option_fmap option_map]. rewrite ?Nat.add_0_l. destruct (HS p Hp) as (_ & _ & x & Hx & Hiff). rewrite Hx. f_equal. rewrite lookup_drop. destruct x as [x|].
      + assert (Hlt : Z.of_nat (ring_dist cap (slot (length P)) p) < Z.of_nat (length W) - Z.of_nat (length P)) by (apply Hiff; discriminate). assert (Hlt2 : (ring_dist cap (slot (length P)) p < length W - length P)%nat) by (clear -Hlt; lia). rewrite (Hdist p Hp Hlt2).
        symmetry. apply (k_data _ _ _ _ _ _ _ _ _ (v_core _ _ _ _ _ _ V)); [exact Hp|]. unfold lkd. cbn. rewrite Hx. reflexivity.
      + symmetry. apply lookup_ge_None_2. destruct (decide (length W <= length P + ring_dist cap (slot (length P)) p)%nat); [assumption|]. exfalso. apply Hiff; [lia|reflexivity].
    - apply list_eq. intros p. destruct (decide (p < cap)%nat) as [Hp|Hp]; [|rewrite !lookup_ge_None_2; [reflexivity|rewrite fmap_length, seq_length; lia|lia]].
      rewrite list_lookup_fmap, lookup_seq_lt by exact Hp. cbn [fmap option_fmap option_map]. rewrite ?Nat.add_0_l. destruct (HS p Hp) as (_ & Ho & _). rewrite Ho. f_equal. apply bool_decide_ext. rewrite drop_length. lia.
    - apply list_eq. intros p. destruct (decide (p < cap)%nat) as [Hp|Hp]; [|rewrite !lookup_ge_None_2; [reflexivity|rewrite replicate_length; lia|lia]].
      rewrite lookup_replicate_2 by exact Hp. apply HS. exact Hp.
  Qed.
End queue.
