(** Interleaving semantics shared by all concurrent models: a shared state, a list of thread-local
    states and a per-thread step function (None = finished or blocked).  Every step is one atomic
    access; a scheduler may choose any thread at any time (sequentially consistent interleaving). *)
From Verif Require Import Base.


Section conc.
  Context {S L : Type} (tstep : nat -> S -> L -> option (S * L)).

  Definition config : Type := S * list L.

  Inductive cstep : config -> config -> Prop :=
  | CStep s ls i l s' l' :
      ls !! i = Some l -> tstep i s l = Some (s', l') -> cstep (s, ls) (s', <[i := l']> ls).

  (** reachability under some schedule *)
  Definition reach : config -> config -> Prop := rtc cstep.

  (** executing a given schedule (list of thread numbers); None if a scheduled thread cannot step *)
  Fixpoint run (sched : list nat) (c : config) : option config :=
    match sched with
    | [] => Some c
    | i :: sched =>
      match c.2 !! i with
      | None => None
      | Some l => match tstep i c.1 l with
                  | None => None
                  | Some (s', l') => run sched (s', <[i := l']> c.2)
                  end
      end
    end.

  Lemma run_reach sched : forall c c', run sched c = Some c' -> reach c c'.
  Proof.
    induction sched as [|i sched IH]; intros [s ls] c' H; cbn in H.
    - injection H as <-. apply rtc_refl.
    - destruct (ls !! i) as [l|] eqn:E1; [|discriminate].
      destruct (tstep i s l) as [[s' l']|] eqn:E2; [|discriminate].
      eapply rtc_l; [econstructor; eassumption|]. apply IH. exact H.
  Qed.

  Lemma reach_run c c' : reach c c' -> exists sched, run sched c = Some c'.
  Proof.
    induction 1 as [c|c1 c2 c3 Hs _ [sched IH]]; [exists []; reflexivity|].
    destruct Hs as [s ls i l s' l' E1 E2]. exists (i :: sched). cbn. rewrite E1, E2. exact IH.
  Qed.

  Lemma run_app s1 s2 c : run (s1 ++ s2) c = match run s1 c with Some c' => run s2 c' | None => None end.
  Proof.
    revert c. induction s1 as [|i s1 IH]; intros c; [reflexivity|]. cbn.
    destruct (c.2 !! i) as [l|]; [|reflexivity]. destruct (tstep i c.1 l) as [[s' l']|]; [|reflexivity]. apply IH.
  Qed.

  Lemma invariant (I : config -> Prop) :
    (forall c c', I c -> cstep c c' -> I c') -> forall c c', I c -> reach c c' -> I c'.
  Proof. intros Hstep c c' Hc Hr. induction Hr as [|c1 c2 c3 H1 _ IH]; eauto. Qed.

  Lemma cstep_length s ls s' ls' : cstep (s, ls) (s', ls') -> length ls' = length ls.
  Proof. inversion 1; subst. apply insert_length. Qed.
End conc.

(** Sums over threads *)
Section sums.
  Context {L : Type}.
  Fixpoint sumZ (f : L -> Z) (ls : list L) : Z := match ls with [] => 0 | l :: ls => f l + sumZ f ls end.

  Lemma sumZ_cons f l ls : sumZ f (l :: ls) = f l + sumZ f ls.
  Proof. reflexivity. Qed.
  Lemma sumZ_app f l1 l2 : sumZ f (l1 ++ l2) = sumZ f l1 + sumZ f l2.
  Proof. induction l1 as [|a l1 IH]; [reflexivity|]. cbn. rewrite IH. lia. Qed.

  Lemma sumZ_insert f ls i l l' : ls !! i = Some l -> sumZ f (<[i := l']> ls) = sumZ f ls - f l + f l'.
  Proof.
    revert i. induction ls as [|a ls IH]; intros [|i] H; cbn in *; try discriminate.
    - injection H as ->. lia.
    - rewrite IH by exact H. lia.
  Qed.

  Lemma sumZ_nonneg f ls : (forall l, l ∈ ls -> 0 <= f l) -> 0 <= sumZ f ls.
  Proof.
    induction ls as [|a ls IH]; intros H; cbn; [lia|].
    assert (0 <= f a) by (apply H; left). assert (0 <= sumZ f ls) by (apply IH; intros; apply H; right; assumption).
    lia.
  Qed.

  Lemma sumZ_ge_elem f ls i l : (forall l, l ∈ ls -> 0 <= f l) -> ls !! i = Some l -> f l <= sumZ f ls.
  Proof.
    revert i. induction ls as [|a ls IH]; intros [|i] Hn H; cbn in *; try discriminate.
    - injection H as ->. pose proof (sumZ_nonneg f ls ltac:(intros; apply Hn; right; assumption)). lia.
    - assert (0 <= f a) by (apply Hn; left). specialize (IH i ltac:(intros; apply Hn; right; assumption) H). lia.
  Qed.

  Lemma sumZ_ge_two f ls i j l l' : (forall l, l ∈ ls -> 0 <= f l) -> i <> j -> ls !! i = Some l -> ls !! j = Some l' ->
    f l + f l' <= sumZ f ls.
  Proof.
    revert i j. induction ls as [|a ls IH]; intros i j Hn Hne Hi Hj; [discriminate|].
    assert (0 <= f a) by (apply Hn; left).
    assert (Hn' : forall l, l ∈ ls -> 0 <= f l) by (intros; apply Hn; right; assumption).
    destruct i as [|i], j as [|j]; cbn in *; try congruence.
    - injection Hi as ->. pose proof (sumZ_ge_elem f ls j l' Hn' Hj). lia.
    - injection Hj as ->. pose proof (sumZ_ge_elem f ls i l Hn' Hi). lia.
    - specialize (IH i j Hn' ltac:(congruence) Hi Hj). lia.
  Qed.

  Lemma sumZ_pos_witness f ls : (forall l, l ∈ ls -> 0 <= f l) -> 0 < sumZ f ls -> exists i l, ls !! i = Some l /\ 0 < f l.
  Proof.
    induction ls as [|a ls IH]; intros Hn H; cbn in H; [lia|].
    destruct (Z.lt_ge_cases 0 (f a)) as [Ha|Ha].
    - exists 0%nat, a. auto.
    - assert (0 <= f a) by (apply Hn; left).
      destruct IH as (i & l & Hl & Hp); [intros; apply Hn; right; assumption|lia|].
      exists (S i), l. auto.
  Qed.

  Lemma sumZ_zero f ls : (forall l, l ∈ ls -> f l = 0) -> sumZ f ls = 0.
  Proof.
    induction ls as [|a ls IH]; intros H; cbn; [reflexivity|].
    rewrite H by left. rewrite IH; [reflexivity|]. intros; apply H; right; assumption.
  Qed.

  Lemma sumZ_ext f g ls : (forall l, l ∈ ls -> f l = g l) -> sumZ f ls = sumZ g ls.
  Proof.
    induction ls as [|a ls IH]; intros H; cbn; [reflexivity|].
    rewrite H by left. rewrite IH; [reflexivity|]. intros; apply H; right; assumption.
  Qed.

  Lemma sumZ_add f g ls : sumZ (fun l => f l + g l) ls = sumZ f ls + sumZ g ls.
  Proof. induction ls as [|a ls IH]; cbn; [reflexivity|]. rewrite IH. lia. Qed.
End sums.

(** Threads that execute programs of operations on one shared object, every operation being a single
    atomic step of the object ([ostep]; None: the call is outside its contract, the thread is stuck). *)
Section object.
  Context {S Op R : Type} (ostep : S -> Op -> option (S * R)).
  Record othread := { o_prog : list Op; o_log : list (Op * R) }.

  (** shared state: the object and the ghost history (thread, operation, result) in order of effect *)
  Definition obj_step (tid : nat) (s : S * list (nat * Op * R)) (l : othread) : option ((S * list (nat * Op * R)) * othread) :=
    match o_prog l with
    | [] => None
    | op :: rest =>
      match ostep s.1 op with
      | None => None
      | Some (s', r) => Some ((s', s.2 ++ [(tid, op, r)]), {| o_prog := rest; o_log := o_log l ++ [(op, r)] |})
      end
    end.

  Definition obj_init (s0 : S) (progs : list (list Op)) : (S * list (nat * Op * R)) * list othread :=
    ((s0, []), (fun p => {| o_prog := p; o_log := [] |}) <$> progs).

  (** executing a history sequentially, checking the recorded results *)
  Fixpoint seq_exec (s : S) (h : list (nat * Op * R)) (s' : S) : Prop :=
    match h with
    | [] => s' = s
    | (_, op, r) :: h => exists s1, ostep s op = Some (s1, r) /\ seq_exec s1 h s'
    end.

  Definition hist_of (i : nat) (h : list (nat * Op * R)) : list (Op * R) :=
    (fun e => (e.1.2, e.2)) <$> filter (fun e : nat * Op * R => e.1.1 = i) h.

  Local Arguments hist_of : simpl never.

  Lemma seq_exec_snoc s h s1 i op s2 r : seq_exec s h s1 -> ostep s1 op = Some (s2, r) -> seq_exec s (h ++ [(i, op, r)]) s2.
  Proof.
    revert s. induction h as [|[[j o] q] h IH]; intros s; cbn.
    - intros ->. eauto.
    - intros (s' & E & H) Hs. eauto.
  Qed.

  Lemma hist_of_snoc i j h op r : hist_of i (h ++ [(j, op, r)]) = hist_of i h ++ (if decide (j = i) then [(op, r)] else []).
  Proof.
    unfold hist_of. rewrite filter_app, fmap_app. f_equal. rewrite filter_cons. cbn. destruct (decide (j = i)); reflexivity.
  Qed.

  Lemma obj_linearizable s0 progs s h ls : reach obj_step (obj_init s0 progs) ((s, h), ls) ->
    seq_exec s0 h s /\ length ls = length progs /\
    (forall i l, ls !! i = Some l -> o_log l = hist_of i h /\ progs !! i = Some ((o_log l).*1 ++ o_prog l)).
  Proof.
    intros Hr.
    refine (invariant obj_step (fun c => seq_exec s0 c.1.2 c.1.1 /\ length c.2 = length progs /\
      (forall i l, c.2 !! i = Some l -> o_log l = hist_of i c.1.2 /\ progs !! i = Some ((o_log l).*1 ++ o_prog l))) _ (obj_init s0 progs) ((s, h), ls) _ Hr).
    - intros c c' (H1 & H2 & H3) Hs. destruct Hs as [[s1 h1] ls1 i l [s2 h2] l' Hi Hst]. cbn in *.
      unfold obj_step in Hst. destruct (o_prog l) as [|op rest] eqn:Ep; [discriminate|]. cbn in Hst.
      destruct (ostep s1 op) as [[s3 r]|] eqn:Eo; [|discriminate]. injection Hst as <- <- <-. cbn [fst snd].
      cbn [fst snd]. split; [eapply seq_exec_snoc; eauto|]. split; [rewrite insert_length; exact H2|].
      intros j lj Hj. rewrite hist_of_snoc. destruct (decide (i = j)) as [->|Hne].
      + rewrite list_lookup_insert in Hj by (eapply lookup_lt_Some; eassumption). injection Hj as <-. cbn.
        destruct (H3 _ _ Hi) as [E1 E2]. split; [rewrite E1; reflexivity|].
        rewrite fmap_app. cbn. rewrite <- app_assoc. cbn. rewrite <- Ep. exact E2.
      + rewrite list_lookup_insert_ne in Hj by congruence. rewrite app_nil_r. auto.
    - cbn. split; [reflexivity|]. split; [apply fmap_length|]. intros i l Hl. rewrite list_lookup_fmap in Hl.
      destruct (progs !! i) as [p|]; [|discriminate]. injection Hl as <-. auto.
  Qed.
End object.
