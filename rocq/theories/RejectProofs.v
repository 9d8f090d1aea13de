(** The size counter of vector and deque with calls that were rejected after they had changed it. *)
From Verif Require Import Base Conc SlotModel SlotSpec SlotProofs VectorModel VectorProofs VectorConcProofs DequeModel DequeProofs DequeConcProofs CounterProofs.

(** number of calls that push ([push = true]) or pop and returned false after they had changed the size counter: thread [i] runs the program
    [progs !! i], its results so far are in [q_log] *)
Definition is_oob {T} (r : qres T) : bool := match r with OutOfBounds => true | _ => false end.
Definition rejected {T} (push : bool) (progs : list (list (qop T))) (ls : list (qthread T)) : Z :=
  sumZ (fun x : list (qop T) * qthread T => sumZ (fun c : qop T * qres T => if Bool.eqb (is_push (kind_of c.1)) push && is_oob c.2 then 1 else 0) (zip x.1 (q_log x.2))) (zip progs ls).

Section reject.
  Context {T C : Type} (ctl : C -> qkind -> nat -> cres C) (cz : C -> Z) (cnt : nat -> Z).
  Hypothesis Hcnt : cnt 0%nat = 0.
  Hypothesis Hctl : forall c k n, match ctl c k n with
    | CGo c' n' => cz c' = cz c + (cnt n' - cnt n) * sg k
    | CReject => cnt n = 0
    | COob c' | CClaim c' _ => cz c' = cz c + (1 - cnt n) * sg k
    end.
  Context (progs : list (list (qop T))) (c0 : Z).

  Definition weight (x : qop T * qres T) : Z := match x.2 with Pushed _ => 1 | Popped _ => -1 | OutOfBounds => sg (kind_of x.1) | Refused => 0 end.
  Definition cur (t : qthread T) : Z :=
    match q_prog t with
    | [] => 0
    | op :: _ => match q_pc t with QIdle => 0 | QCtl n => cnt n * sg (kind_of op) | QUnlock _ (Some r) => weight (op, r) | _ => sg (kind_of op) end
    end.
  Definition okpc (t : qthread T) : Prop :=
    match q_prog t, q_pc t with
    | op :: _, (QReset _ | QRead _ | QDestroy _ _) => is_push (kind_of op) = false
    | op :: _, QUnlock _ (Some r) => weight (op, r) = sg (kind_of op)
    | _, _ => True
    end.
  Definition netw (x : list (qop T) * qthread T) : Z := sumZ weight (zip x.1 (q_log x.2)) + cur x.2.
  Definition jinv (c : qshared T C * list (qthread T)) : Prop :=
    length c.2 = length progs /\
    (forall i t, c.2 !! i = Some t -> okpc t /\ exists done, progs !! i = Some (done ++ q_prog t) /\ length done = length (q_log t)) /\
    cz (q_c c.1) = c0 + sumZ netw (zip progs c.2).

  Lemma step_weight prog done i s t s' t' : okpc t -> prog = done ++ q_prog t -> length done = length (q_log t) ->
    (forall op, op ∈ q_prog t -> is_push (kind_of op) = match op with QPush _ _ => true | QPop _ => false end) ->
    qstep ctl i s t = Some (s', t') ->
    okpc t' /\ (exists done', prog = done' ++ q_prog t' /\ length done' = length (q_log t')) /\ cz (q_c s') = cz (q_c s) + netw (prog, t') - netw (prog, t).
  Proof using Hcnt Hctl.
    intros Ok -> Hlen Hk E. unfold qstep in E. destruct (q_prog t) as [|op rest] eqn:Ep; [discriminate|].
    pose proof (Hk op ltac:(left)) as Hop.
    assert (Hgo : forall pc c', q_c s' = c' -> t' = goto t pc -> okpc (goto t pc) -> cz c' = cz (q_c s) + cur (goto t pc) - cur t ->
      okpc t' /\ (exists done', done ++ op :: rest = done' ++ q_prog t' /\ length done' = length (q_log t')) /\ cz (q_c s') = cz (q_c s) + netw (done ++ op :: rest, t') - netw (done ++ op :: rest, t)).
    { intros pc c' -> -> Ok' H. split; [exact Ok'|]. split; [exists done; cbn [goto q_prog q_log]; rewrite Ep; auto|]. unfold netw. cbn [fst snd goto q_log]. lia. }
    assert (Hfin : forall r c', q_c s' = c' -> t' = finish t r -> cz c' = cz (q_c s) + weight (op, r) - cur t ->
      okpc t' /\ (exists done', done ++ op :: rest = done' ++ q_prog t' /\ length done' = length (q_log t')) /\ cz (q_c s') = cz (q_c s) + netw (done ++ op :: rest, t') - netw (done ++ op :: rest, t)).
    { intros r c' -> -> H. split; [unfold okpc; cbn; destruct (tail _); exact Logic.I|].
      split; [exists (done ++ [op]); cbn [finish q_prog q_log]; rewrite Ep; cbn [tail]; rewrite <- app_assoc, !app_length; cbn [length]; split; [reflexivity|rewrite Hlen; reflexivity]|].
      unfold netw. cbn [fst snd finish q_log]. rewrite H. rewrite !zip_with_app_r. rewrite drop_app_alt by lia. cbn [zip_with]. rewrite sumZ_app. cbn [sumZ].
      assert (Ez : zip (take (length (q_log t)) (done ++ op :: rest)) (q_log t) = zip (done ++ op :: rest) (q_log t)).
      { rewrite take_app_alt by lia. rewrite zip_with_app_l. rewrite (take_ge (q_log t)) by lia. rewrite drop_ge by lia. rewrite zip_with_nil_r. symmetry. apply app_nil_r. }
      rewrite Ez. assert (E0 : cur (finish t r) = 0) by (unfold cur; cbn [finish q_pc q_prog]; destruct (tail (q_prog t)); reflexivity). rewrite E0, (zip_with_nil_r _ rest). cbn [sumZ]. lia. }
    unfold cur in Hgo, Hfin. rewrite Ep in *. cbn [goto q_prog q_pc] in Hgo. unfold okpc in Hgo, Ok. cbn [goto q_prog q_pc] in Hgo. rewrite Ep in *.
    destruct (q_pc t) as [|n|p|p|p|p|p|p|p y|p r] eqn:Epc.
    - injection E as <- <-. eapply Hgo; [reflexivity..|exact Logic.I|]. cbn iota; rewrite Hcnt; lia.
    - specialize (Hctl (q_c s) (kind_of op) n). destruct (ctl (q_c s) (kind_of op) n) as [c' n'| |c'|c' p]; injection E as <- <-.
      + eapply Hgo; [reflexivity..|exact Logic.I|]. cbn [with_c q_c]. cbn iota. lia.
      + eapply Hfin; [reflexivity..|]. cbn. lia.
      + eapply Hfin; [reflexivity..|]. cbn [with_c q_c weight fst snd]. change (weight (op, OutOfBounds)) with (sg (kind_of op)). cbn iota. lia.
      + eapply Hgo; [reflexivity..|exact Logic.I|]. cbn [with_c q_c]. cbn iota. lia.
    - destruct (q_locks s !! p) as [[]|]; try discriminate; injection E as <- <-.
      + split; [unfold okpc; rewrite Ep, Epc; exact Logic.I|]. split; [exists done; rewrite Ep; auto|]. cbn iota. lia.
      + eapply Hgo; [reflexivity..|exact Logic.I|]. cbn. cbn iota. lia.
    - destruct (q_occ s !! p) as [b|]; [|discriminate]. destruct op as [k x|k]; injection E as <- <-; destruct b;
        (eapply Hgo; [reflexivity..|first [exact Logic.I|exact Hop]|]; cbn iota; lia).
    - destruct op as [k x|k]; [|discriminate]. injection E as <- <-. eapply Hgo; [reflexivity..|exact Logic.I|]. cbn [with_data q_c]. cbn iota. lia.
    - destruct op as [k x|k]; [|discriminate]. injection E as <- <-. assert (H : weight (QPush k x, Pushed x) = sg (kind_of (QPush k x))) by (unfold sg; rewrite Hop; reflexivity).
      eapply Hgo; [reflexivity..|exact H|]. cbn [with_occ q_c]. cbn iota. lia.
    - injection E as <- <-. eapply Hgo; [reflexivity..|exact Ok|]. cbn [with_occ q_c]. cbn iota. lia.
    - destruct (q_data s !! p) as [[y|]|]; try discriminate. injection E as <- <-. eapply Hgo; [reflexivity..|exact Ok|]. cbn iota. lia.
    - injection E as <- <-. assert (H : weight (op, Popped y) = sg (kind_of op)) by (unfold sg; rewrite Ok; reflexivity).
      eapply Hgo; [reflexivity..|exact H|]. cbn [with_data q_c]. cbn iota. lia.
    - destruct r as [r|]; injection E as <- <-.
      + eapply Hfin; [reflexivity..|]. cbn [with_lock q_c]. cbn iota. lia.
      + eapply Hgo; [reflexivity..|exact Logic.I|]. cbn [with_lock q_c]. cbn iota. lia.
  Qed.

  Hypothesis Hk : forall p op, p ∈ progs -> op ∈ p -> is_push (kind_of op) = match op with QPush _ _ => true | QPop _ => false end.
  Lemma jinv_reach (s0 s : qshared T C) ls : cz (q_c s0) = c0 -> reach (qstep ctl) (s0, q_start progs) (s, ls) -> jinv (s, ls).
  Proof using Hcnt Hctl Hk.
    intros H0 R. refine (invariant (qstep ctl) jinv _ (s0, q_start progs) (s, ls) _ R).
    - intros c c' (L & P & W) Hs. destruct Hs as [s1 ls1 i t s2 t2 Hi Hst]. unfold jinv. cbn [fst snd] in *.
      destruct (P i t Hi) as (Ok & done & Hp & Hl).
      destruct (step_weight (done ++ q_prog t) done i s1 t s2 t2 Ok eq_refl Hl) as (Ok' & (done' & Hp' & Hl') & Hc); [|exact Hst|].
      { intros op Hop. apply (Hk (done ++ q_prog t)); [eapply elem_of_list_lookup_2; exact Hp|]. apply elem_of_app. right. exact Hop. }
      split; [rewrite insert_length; exact L|]. split.
      + intros j tj Hj. destruct (decide (i = j)) as [<-|Hij].
        * rewrite list_lookup_insert in Hj by (eapply lookup_lt_Some; exact Hi). injection Hj as <-. split; [exact Ok'|]. exists done'. split; [rewrite Hp, Hp'; reflexivity|exact Hl'].
        * rewrite list_lookup_insert_ne in Hj by exact Hij. exact (P j tj Hj).
      + assert (Ez : zip progs (<[i := t2]> ls1) = <[i := (done ++ q_prog t, t2)]> (zip progs ls1)).
        { rewrite <- (list_insert_id progs i _ Hp) at 1. symmetry. apply insert_zip_with. }
        rewrite Ez, (sumZ_insert _ _ i (done ++ q_prog t, t)); [lia|]. rewrite lookup_zip_with, Hp. cbn. rewrite Hi. reflexivity.
    - unfold jinv. cbn [fst snd]. split; [apply fmap_length|]. split.
      + intros i t Hi. unfold q_start in Hi; rewrite list_lookup_fmap in Hi; destruct (progs !! i) as [p|] eqn:Hp; [|discriminate]; cbn in Hi; injection Hi as <-. split; [unfold okpc; cbn; destruct p; exact Logic.I|]. exists []. split; reflexivity.
      + rewrite H0, sumZ_zero; [lia|]. intros [p t] Hx. apply elem_of_zip_r in Hx as Ht. apply elem_of_list_fmap in Ht as (p' & -> & _).
        unfold netw, cur. cbn. rewrite zip_with_nil_r. destruct p'; reflexivity.
  Qed.
  (** at rest the counter is the start value, plus the successful and rejected pushes, minus the successful and rejected pops *)
  Lemma rest_count (s0 s : qshared T C) ls : cz (q_c s0) = c0 -> reach (qstep ctl) (s0, q_start progs) (s, ls) -> quiescent ls ->
    cz (q_c s) = c0 + Z.of_nat (length (ls ≫= fun t => pushed_by (q_log t))) - Z.of_nat (length (ls ≫= fun t => popped_by (q_log t))) + rejected true progs ls - rejected false progs ls.
  Proof using Hcnt Hctl Hk.
    intros H0 R Hq. destruct (jinv_reach s0 s ls H0 R) as (L & P & W). cbn [fst snd] in *. rewrite W. unfold rejected.
    assert (Hg : forall (ps : list (list (qop T))) (ts : list (qthread T)), length ts = length ps ->
      (forall i t p, ts !! i = Some t -> ps !! i = Some p -> q_pc t = QIdle /\ (length (q_log t) <= length p)%nat) ->
      sumZ netw (zip ps ts) = Z.of_nat (length (ts ≫= fun t => pushed_by (q_log t))) - Z.of_nat (length (ts ≫= fun t => popped_by (q_log t))) +
        sumZ (fun x : list (qop T) * qthread T => sumZ (fun c : qop T * qres T => if Bool.eqb (is_push (kind_of c.1)) true && is_oob c.2 then 1 else 0) (zip x.1 (q_log x.2))) (zip ps ts) -
        sumZ (fun x : list (qop T) * qthread T => sumZ (fun c : qop T * qres T => if Bool.eqb (is_push (kind_of c.1)) false && is_oob c.2 then 1 else 0) (zip x.1 (q_log x.2))) (zip ps ts)).
    { clear. induction ps as [|p ps IH]; intros [|t ts] L H; try discriminate; [reflexivity|]. cbn [zip_with sumZ mbind list_bind]. cbn [length] in L.
      rewrite !app_length. rewrite (IH ts ltac:(lia) (fun i t' p' => H (S i) t' p')). destruct (H 0%nat t p eq_refl eq_refl) as [Hq Hl]. cbn [fst snd].
      assert (E : netw (p, t) = Z.of_nat (length (pushed_by (q_log t))) - Z.of_nat (length (popped_by (q_log t))) +
        sumZ (fun c : qop T * qres T => if Bool.eqb (is_push (kind_of c.1)) true && is_oob c.2 then 1 else 0) (zip p (q_log t)) -
        sumZ (fun c : qop T * qres T => if Bool.eqb (is_push (kind_of c.1)) false && is_oob c.2 then 1 else 0) (zip p (q_log t))).
      { unfold netw, cur. cbn [fst snd]. rewrite Hq. assert (E0 : (match q_prog t with [] => 0 | _ :: _ => 0 end) = 0) by (destruct (q_prog t); reflexivity). rewrite E0. clear E0 Hq H IH L.
        revert p Hl. generalize (q_log t). clear. induction l as [|r l IH]; intros [|op p] Hl; cbn [length] in Hl; try lia; [reflexivity|reflexivity|].
        specialize (IH p ltac:(lia)). cbn [zip_with sumZ fst snd]. unfold weight at 1, sg. cbn [fst snd]. destruct r as [x|y| |]; cbn [is_oob]; rewrite ?andb_false_r, ?andb_true_r.
        - change (pushed_by (Pushed x :: l)) with (x :: pushed_by l). change (popped_by (Pushed x :: l)) with (popped_by l). cbn [length]. lia.
        - change (pushed_by (Popped y :: l)) with (pushed_by l). change (popped_by (Popped y :: l)) with (y :: popped_by l). cbn [length]. lia.
        - change (pushed_by (Refused :: l)) with (pushed_by l). change (popped_by (Refused :: l)) with (popped_by l). lia.
        - change (pushed_by (OutOfBounds :: l)) with (pushed_by l). change (popped_by (OutOfBounds :: l)) with (popped_by l). destruct (is_push (kind_of op)); cbn [Bool.eqb]; lia. }
      rewrite E. unfold mbind. lia. }
    rewrite (Hg progs ls L); [lia|]. intros i t p Hi Hp. split; [apply Hq; eapply elem_of_list_lookup_2; exact Hi|].
    destruct (P i t Hi) as (_ & done & Hd & Hl). rewrite Hp in Hd. injection Hd as ->. rewrite app_length. lia.
  Qed.
End reject.

Lemma bcount_stored {T} (o : list bool) : forall (d : list (option T)), length d = length o -> (forall p, (p < length o)%nat -> live (lkd d p) = Z.b2z (lk o p)) -> bcount o = Z.of_nat (length (stored d)).
Proof.
  induction o as [|x o IH]; intros [|y d] Hlen H; try discriminate; [reflexivity|]. cbn [length] in *.
  specialize (IH d ltac:(lia) (fun p Hp => H (S p) ltac:(lia))). pose proof (H 0%nat ltac:(lia)) as H0. change (live y = Z.b2z x) in H0.
  unfold bcount, stored in *. rewrite filter_cons. destruct x, y; cbn in H0; try discriminate; cbn.
  - rewrite decide_True by reflexivity. cbn [length]. lia.
  - rewrite decide_False by discriminate. exact IH.
Qed.
Lemma bcount_zero (o : list bool) : (forall p, (p < length o)%nat -> lk o p = false) -> bcount o = 0.
Proof.
  induction o as [|x o IH]; intros H; [reflexivity|]. unfold bcount in *. rewrite filter_cons. pose proof (H 0%nat ltac:(cbn; lia)) as H0. change (x = false) in H0. subst x.
  rewrite decide_False by discriminate. apply IH. intros p Hp. apply (H (S p)). cbn. lia.
Qed.

(** the validity of an array with these counts *)
Lemma valid_iff {T} (v : vec T) (n : Z) : 0 < v_capacity v -> bcount (v_occ v) = n -> 0 <= n <= v_capacity v -> bcount (v_locks v) = 0 -> (v_valid v = true <-> v_n v = n).
Proof.
  intros Hc Ho Hn Hl. unfold v_valid, v_size, clamp_size. rewrite Ho, Hl. destruct (Z.eqb_spec (v_capacity v) 0) as [|_]; [lia|].
  destruct (Z.ltb_spec (v_n v) 0), (Z.ltb_spec (v_capacity v) (v_n v)); rewrite ?andb_true_iff, ?Z.eqb_eq, ?Z.leb_le; lia.
Qed.

Lemma vctl_reject cap c k n : match vctl cap c k n with
    | CGo c' n' => c' = c + (0 - 0) * sg k | CReject => 0 = 0 | COob c' | CClaim c' _ => c' = c + (1 - 0) * sg k end.
Proof.
  unfold vctl. destruct k, n as [|n]; try reflexivity; unfold sg; cbn [is_push].
  - destruct (_ =? _); [reflexivity|lia].
  - destruct (_ && _); lia.
  - destruct (_ =? _); [reflexivity|lia].
  - destruct (_ && _); lia.
Qed.
Definition dcnt2 (n : nat) : Z := match n with 0%nat | 1%nat => 0 | _ => 1 end.
Lemma dctl_reject cap c k n : match dctl cap c k n with
    | CGo c' n' => c_n c' = c_n c + (dcnt2 n' - dcnt2 n) * sg k | CReject => dcnt2 n = 0 | COob c' | CClaim c' _ => c_n c' = c_n c + (1 - dcnt2 n) * sg k end.
Proof.
  unfold dctl, sg. destruct n as [|[|n]]; cbn [dcnt2].
  - destruct (_ =? _); [reflexivity|]. cbn [dcnt2]. lia.
  - destruct (is_push k); [destruct (c_n c <? _)|destruct (0 <? c_n c)]; cbn [c_n dcnt2]; lia.
  - destruct k; cbn [c_n]; lia.
Qed.

(** what an invariant of the slots says at rest *)
Section rest.
  Context {T C : Type} (cap : nat) (m : C -> nat -> Z) (cok : C -> Prop) (w0 : (T -> Z) -> Z) (s : qshared T C) (ls : list (qthread T)).
  Hypothesis I : inv cap m cok w0 s ls.
  Hypothesis Hq : quiescent ls.
  Lemma rest_stored : Z.of_nat (length (stored (q_data s))) = w0 (fun _ => 1) + Z.of_nat (length (ls ≫= fun t => pushed_by (q_log t))) - Z.of_nat (length (ls ≫= fun t => popped_by (q_log t))).
  Proof.
    destruct (at_rest cap m cok _ _ _ I Hq) as [_ Hfl]. pose proof (i_cons _ _ _ _ _ _ I (fun _ => 1)) as Hcons. rewrite <- (length_stored 0 [] (Nat.le_refl _)) in Hcons.
    assert (E1 : sumZ (wpush (fun _ => 1)) ls = Z.of_nat (length (ls ≫= fun t => pushed_by (q_log t)))).
    { rewrite <- (sum_length 0 [] (Nat.le_refl _)). apply sumZ_ext. intros t Ht. unfold wpush. rewrite (proj1 (Hfl t Ht)), app_nil_r. reflexivity. }
    assert (E2 : sumZ (wpop (fun _ => 1)) ls = Z.of_nat (length (ls ≫= fun t => popped_by (q_log t)))).
    { rewrite <- (sum_length 0 [] (Nat.le_refl _)). apply sumZ_ext. intros t Ht. unfold wpop. rewrite (proj2 (Hfl t Ht)), app_nil_r. reflexivity. }
    lia.
  Qed.
  Lemma rest_arrays : bcount (q_occ s) = Z.of_nat (length (stored (q_data s))) /\ bcount (q_locks s) = 0 /\ (length (stored (q_data s)) <= cap)%nat.
  Proof.
    destruct (at_rest cap m cok _ _ _ I Hq) as [Hr _]. destruct (i_len _ _ _ _ _ _ I) as (L1 & L2 & L3). split; [|split].
    - apply bcount_stored; [lia|]. intros p Hp. apply Hr. lia.
    - apply bcount_zero. intros p Hp. apply Hr. lia.
    - rewrite <- L1. unfold stored. clear. induction (q_data s) as [|[x|] d IH]; cbn; [lia|unfold id in *; cbn; lia|unfold id in *; cbn; lia].
  Qed.
End rest.

Lemma vec_reject {T} (cap : nat) (l : list T) (Hl : (length l <= cap)%nat) (Hcap : (0 < cap)%nat) progs (Hwf : forall p op, p ∈ progs -> op ∈ p -> vector_call op) s ls :
  reach (qstep (vctl cap)) (vec_conc_start cap l, q_start progs) (s, ls) -> quiescent ls ->
  v_n (as_vec s) = Z.of_nat (length (stored (q_data s))) + rejected true progs ls - rejected false progs ls /\
  (v_valid (as_vec s) = true <-> rejected true progs ls = rejected false progs ls).
Proof.
  intros R Hq. pose proof (reach_inv cap l Hl progs Hwf s ls R) as I.
  assert (Hk : forall p op, p ∈ progs -> op ∈ p -> is_push (kind_of op) = match op with QPush _ _ => true | QPop _ => false end).
  { intros p op H1 H2. specialize (Hwf p op H1 H2). destruct op as [[] x|[]]; cbn in *; try contradiction; reflexivity. }
  pose proof (rest_count (vctl cap) (fun c => c) (fun _ => 0) eq_refl (vctl_reject cap) progs (Z.of_nat (length l)) Hk (vec_conc_start cap l) s ls eq_refl R Hq) as Hn.
  pose proof (rest_stored _ _ _ _ _ _ I Hq) as Hs. cbn beta in Hs. rewrite <- (length_stored 0 [] (Nat.le_refl _)), stored_start in Hs by exact Hl. destruct (rest_arrays _ _ _ _ _ _ I Hq) as (A1 & A2 & A3).
  assert (E : v_n (as_vec s) = Z.of_nat (length (stored (q_data s))) + rejected true progs ls - rejected false progs ls) by (cbn [as_vec v_n] in *; lia).
  split; [exact E|]. assert (Hc : v_capacity (as_vec s) = Z.of_nat cap) by (unfold v_capacity; cbn; rewrite (proj1 (proj2 (i_len _ _ _ _ _ _ I))); reflexivity).
  rewrite (valid_iff (as_vec s) _ ltac:(lia) A1 ltac:(lia) A2). lia.
Qed.
Lemma deq_reject {T} (cap b : nat) (l : list T) (Hb : (b < cap)%nat) (Hcap : Z.of_nat cap <= INT_MAX) (Hl : (length l <= cap)%nat) progs (Hwf : forall p op, p ∈ progs -> op ∈ p -> op_wf op) s ls :
  reach (qstep (dctl cap)) (deq_conc_start cap b l, q_start progs) (s, ls) -> quiescent ls ->
  v_n (d_v (as_deq s)) = Z.of_nat (length (stored (q_data s))) + rejected true progs ls - rejected false progs ls /\
  (d_valid (as_deq s) = true <-> rejected true progs ls = rejected false progs ls).
Proof.
  intros R Hq. destruct (dreach_inv cap b l Hb Hcap Hl progs Hwf s ls R) as (sg & Es & _ & I).
  assert (Hk : forall p op, p ∈ progs -> op ∈ p -> is_push (kind_of op) = match op with QPush _ _ => true | QPop _ => false end).
  { intros p op H1 H2. specialize (Hwf p op H1 H2). destruct op; exact Hwf. }
  pose proof (rest_count (dctl cap) c_n dcnt2 eq_refl (dctl_reject cap) progs (Z.of_nat (length l)) Hk (deq_conc_start cap b l) s ls eq_refl R Hq) as Hn.
  pose proof (rest_stored _ _ _ _ _ _ I Hq) as Hs. cbn beta in Hs. rewrite <- (length_stored 0 [] (Nat.le_refl _)) in Hs.
  assert (E0 : length (stored (q_data (gstart (T:=T) cap b l))) = length l) by (apply Permutation_length, (dstored_start cap b l Hb Hl)).
  destruct (rest_arrays _ _ _ _ _ _ I Hq) as (A1 & A2 & A3).
  assert (E : v_n (d_v (as_deq s)) = Z.of_nat (length (stored (q_data s))) + rejected true progs ls - rejected false progs ls).
  { subst s. cbn [as_deq d_v v_n] in *. change (q_data (er_s g_c sg)) with (q_data sg) in *. lia. }
  split; [exact E|]. assert (Hc : v_capacity (d_v (as_deq s)) = Z.of_nat cap) by (subst s; unfold v_capacity; cbn; rewrite (proj1 (proj2 (i_len _ _ _ _ _ _ I))); reflexivity).
  subst s. change (q_data (er_s g_c sg)) with (q_data sg) in *. unfold d_valid. rewrite (valid_iff (d_v (as_deq (er_s g_c sg))) _ ltac:(lia) A1 ltac:(lia) A2). lia.
Qed.
