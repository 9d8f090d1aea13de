(** The 32-bit counters never overflow: with less than 2^31 - capacity threads every schedule does the same with 32-bit counters as with
    unbounded ones. *)
From Verif Require Import Base Conc SlotModel VectorModel VectorProofs DequeModel UnorderedModel UConcModel UEraseModel CounterModel.

(** two step functions that agree in all states an invariant allows run alike *)
Lemma run_agree {S L} (f g : nat -> S -> L -> option (S * L)) (I : config (S:=S) (L:=L) -> Prop) :
  (forall s ls i l, I (s, ls) -> ls !! i = Some l -> g i s l = f i s l) ->
  (forall s ls i l s' l', I (s, ls) -> ls !! i = Some l -> f i s l = Some (s', l') -> I (s', <[i := l']> ls)) ->
  forall sched c, I c -> run g sched c = run f sched c.
Proof.
  intros Ha Hp. induction sched as [|i sched IH]; intros [s ls] H; [reflexivity|]. cbn.
  destruct (ls !! i) as [l|] eqn:E; [|reflexivity]. rewrite (Ha s ls i l H E).
  destruct (f i s l) as [[s' l']|] eqn:F; [|reflexivity]. apply IH. exact (Hp s ls i l s' l' H E F).
Qed.
Lemma run_keeps {S L} (f : nat -> S -> L -> option (S * L)) (I : config (S:=S) (L:=L) -> Prop) :
  (forall s ls i l s' l', I (s, ls) -> ls !! i = Some l -> f i s l = Some (s', l') -> I (s', <[i := l']> ls)) ->
  forall sched c c', I c -> run f sched c = Some c' -> I c'.
Proof.
  intros Hp. induction sched as [|i sched IH]; intros [s ls] c' H R; cbn in R; [injection R as <-; exact H|].
  destruct (ls !! i) as [l|] eqn:E; [|discriminate]. destruct (f i s l) as [[s' l']|] eqn:F; [|discriminate].
  exact (IH _ _ (Hp s ls i l s' l' H E F) R).
Qed.
Lemma sumZ_le_length {L} (f : L -> Z) ls : (forall l, f l <= 1) -> sumZ f ls <= Z.of_nat (length ls).
Proof. intros H. induction ls as [|a ls IH]; cbn [sumZ length]; [lia|]. specialize (H a). lia. Qed.

(** ** vector and deque *)
Section counter.
  Context {T C : Type} (ctl ctl32 : C -> qkind -> nat -> cres C) (cz : C -> Z) (pend : nat -> bool) (capz M : Z).
  Definition sg (k : qkind) : Z := if is_push k then 1 else -1.
  Hypothesis Hcap : 0 <= capz.
  Hypothesis Hmax : capz + M <= INT_MAX.
  Hypothesis Hp0 : pend 0 = false.
  Hypothesis Hctl : forall c k n, match ctl c k n with
    | CGo c' n' => if pend n then pend n' = false /\ cz c' = cz c + sg k
                   else cz c' = cz c /\ (pend n' = true -> if is_push k then cz c < capz else 0 < cz c)
    | CReject => True
    | COob c' | CClaim c' _ => cz c' = cz c + (if pend n then sg k else 0)
    end.
  Hypothesis H32 : forall c k n, (pend n = true -> - 2 ^ 31 <= cz c + sg k <= INT_MAX) -> ctl32 c k n = ctl c k n.

  Definition pnd (k0 : bool) (t : qthread T) : Z :=
    match q_prog t, q_pc t with op :: _, QCtl n => Z.b2z (pend n && Bool.eqb (is_push (kind_of op)) k0) | _, _ => 0 end.
  Definition cinv32 (c : config (S:=qshared T C) (L:=qthread T)) : Prop :=
    Z.of_nat (length c.2) <= M /\ cz (q_c c.1) + sumZ (pnd true) c.2 <= capz + M /\ - M <= cz (q_c c.1) - sumZ (pnd false) c.2.

  Lemma pnd_range k t : 0 <= pnd k t <= 1.
  Proof using. clear. unfold pnd. destruct (q_prog t); [lia|]. destruct (q_pc t); try lia. Qed.

  Lemma pnd_ctl (k : bool) op rest t n : q_prog t = op :: rest -> q_pc t = QCtl n -> pnd k t = Z.b2z (pend n && Bool.eqb (is_push (kind_of op)) k).
  Proof. intros E1 E2. unfold pnd. rewrite E1, E2. reflexivity. Qed.

  Lemma cinv32_agree s ls i t : cinv32 (s, ls) -> ls !! i = Some t -> qstep ctl32 i s t = qstep ctl i s t.
  Proof.
    intros (A & B & D) Hi. cbn [fst snd] in *. unfold qstep. destruct (q_prog t) as [|op rest] eqn:E; [reflexivity|].
    destruct (q_pc t) as [|n|p|p|p|p|p|p|p y|p r] eqn:Epc; try reflexivity. rewrite H32; [reflexivity|]. intros Hn. unfold sg, INT_MAX in *.
    pose proof (sumZ_ge_elem (pnd true) ls i t (fun l _ => proj1 (pnd_range true l)) Hi) as G1.
    pose proof (sumZ_ge_elem (pnd false) ls i t (fun l _ => proj1 (pnd_range false l)) Hi) as G2.
    rewrite (pnd_ctl true op rest t n E Epc), Hn in G1. rewrite (pnd_ctl false op rest t n E Epc), Hn in G2.
    pose proof (sumZ_nonneg (pnd true) ls (fun l _ => proj1 (pnd_range true l))). pose proof (sumZ_nonneg (pnd false) ls (fun l _ => proj1 (pnd_range false l))).
    destruct (is_push (kind_of op)); cbn in *; lia.
  Qed.

  (** what one access of one call does to the counter and to the call's right to change it *)
  Lemma q_counts i s t s' t' : qstep ctl i s t = Some (s', t') ->
    (cz (q_c s') + pnd true t' <= cz (q_c s) + pnd true t \/ cz (q_c s') = cz (q_c s) /\ cz (q_c s) < capz) /\
    (cz (q_c s) - pnd false t <= cz (q_c s') - pnd false t' \/ cz (q_c s') = cz (q_c s) /\ 0 < cz (q_c s)).
  Proof using Hctl Hp0.
    clear Hcap Hmax H32 ctl32 M. intros St. unfold qstep in St. destruct (q_prog t) as [|op rest] eqn:E; [discriminate|].
    assert (Hq : q_c s' = q_c s -> (forall k, pnd k t' <= pnd k t) ->
      (cz (q_c s') + pnd true t' <= cz (q_c s) + pnd true t \/ cz (q_c s') = cz (q_c s) /\ cz (q_c s) < capz) /\
      (cz (q_c s) - pnd false t <= cz (q_c s') - pnd false t' \/ cz (q_c s') = cz (q_c s) /\ 0 < cz (q_c s))).
    { intros -> H. pose proof (H true). pose proof (H false). lia. }
    assert (Hgo : forall pc, match pc with QCtl n => pend n = false | _ => True end -> forall k, pnd k (goto t pc) = 0).
    { intros pc Hpc k. unfold pnd. cbn [goto q_prog q_pc]. rewrite E. destruct pc; try reflexivity. rewrite Hpc. reflexivity. }
    assert (Hfin : forall r k, pnd k (finish t r) = 0) by (intros; unfold pnd; cbn [finish q_prog q_pc]; destruct (tail (q_prog t)); reflexivity).
    assert (Hnn : forall k, 0 <= pnd k t) by (intros; apply pnd_range).
    destruct (q_pc t) as [|n|p|p|p|p|p|p|p y|p r] eqn:Epc.
    - injection St as <- <-. apply Hq; [reflexivity|]. intros k. rewrite Hgo; auto.
    - pose proof (Hctl (q_c s) (kind_of op) n) as HC.
      pose proof (fun k => pnd_ctl k op rest t n E Epc) as P.
      destruct (ctl (q_c s) (kind_of op) n) as [c n'| |c|c p] eqn:EC; injection St as <- <-.
      + cbn [with_c q_c]. pose proof (fun k => pnd_ctl k op rest (goto t (QCtl n')) n' E eq_refl) as P'. rewrite !P, !P' in *.
        destruct (pend n).
        * destruct HC as [-> ->]. unfold sg. destruct (is_push (kind_of op)); cbn in *; lia.
        * destruct HC as [-> HC]. destruct (pend n') eqn:En'; [specialize (HC eq_refl)|]; destruct (is_push (kind_of op)); cbn in *; lia.
      + apply Hq; [reflexivity|]. intros k. rewrite Hfin; auto.
      + cbn [with_c q_c]. rewrite HC, !Hfin, !P in *. unfold sg. destruct (pend n), (is_push (kind_of op)); cbn in *; lia.
      + cbn [with_c q_c]. rewrite HC, !(Hgo (QTry p)), !P in * by exact Logic.I. unfold sg. destruct (pend n), (is_push (kind_of op)); cbn in *; lia.
    - destruct (q_locks s !! p) as [[|]|]; [| |discriminate]; injection St as <- <-; (apply Hq; [reflexivity|]); intros k; [lia|rewrite Hgo; auto].
    - destruct (q_occ s !! p) as [b|]; [|discriminate]. destruct op; injection St as <- <-; (apply Hq; [reflexivity|]); intros k1; rewrite Hgo; auto; destruct b; exact Logic.I.
    - destruct op; [|discriminate]. injection St as <- <-. apply Hq; [reflexivity|]. intros k'. rewrite Hgo; auto.
    - destruct op; [|discriminate]. injection St as <- <-. apply Hq; [reflexivity|]. intros k'. rewrite Hgo; auto.
    - injection St as <- <-. apply Hq; [reflexivity|]. intros k'. rewrite Hgo; auto.
    - destruct (q_data s !! p) as [[y|]|]; try discriminate. injection St as <- <-. apply Hq; [reflexivity|]. intros k'. rewrite Hgo; auto.
    - injection St as <- <-. apply Hq; [reflexivity|]. intros k'. rewrite Hgo; auto.
    - destruct r as [r|]; injection St as <- <-; (apply Hq; [reflexivity|]); intros k'; [rewrite Hfin; auto|rewrite Hgo; auto].
  Qed.
  Lemma cinv32_step s ls i t s' t' : cinv32 (s, ls) -> ls !! i = Some t -> qstep ctl i s t = Some (s', t') -> cinv32 (s', <[i := t']> ls).
  Proof.
    intros (A & B & D) Hi St. unfold cinv32. cbn [fst snd] in *. rewrite insert_length. split; [exact A|].
    assert (Hlen : forall k t1, sumZ (pnd k) (<[i := t1]> ls) <= M).
    { intros k t1. pose proof (sumZ_le_length (pnd k) (<[i := t1]> ls) (fun l => proj2 (pnd_range k l))) as X. rewrite insert_length in X. lia. }
    pose proof (Hlen true t') as L1. pose proof (Hlen false t') as L2.
    rewrite !(sumZ_insert _ _ _ t t' Hi). rewrite (sumZ_insert _ _ _ t t' Hi) in L1. rewrite (sumZ_insert _ _ _ t t' Hi) in L2.
    destruct (q_counts i s t s' t' St). lia.
  Qed.

  Lemma cinv32_start (s : qshared T C) (ls : list (qthread T)) : - M <= cz (q_c s) <= capz + M -> quiescent ls -> Z.of_nat (length ls) <= M -> cinv32 (s, ls).
  Proof.
    intros H Q L. unfold cinv32. cbn [fst snd]. rewrite !sumZ_zero; [lia| |]; intros t Ht; unfold pnd; rewrite (Q t Ht); destruct (q_prog t); reflexivity.
  Qed.
  Lemma counter_runs (s : qshared T C) (ls : list (qthread T)) : - M <= cz (q_c s) <= capz + M -> quiescent ls -> Z.of_nat (length ls) <= M ->
    forall sched, run (qstep ctl32) sched (s, ls) = run (qstep ctl) sched (s, ls) /\
      forall s' ls', run (qstep ctl) sched (s, ls) = Some (s', ls') -> - M <= cz (q_c s') <= capz + M.
  Proof.
    intros H Q L sched. pose proof (cinv32_start s ls H Q L) as I0. split.
    - exact (run_agree _ _ cinv32 cinv32_agree cinv32_step sched _ I0).
    - intros s' ls' R. destruct (run_keeps _ cinv32 cinv32_step sched _ _ I0 R) as (_ & A & B). cbn [fst snd] in *.
      pose proof (sumZ_nonneg (pnd true) ls' (fun l _ => proj1 (pnd_range true l))). pose proof (sumZ_nonneg (pnd false) ls' (fun l _ => proj1 (pnd_range false l))). lia.
  Qed.
End counter.

Lemma clamp_full capz c : 0 <= capz -> (clamp_size capz c =? capz) = false -> c < capz.
Proof. unfold clamp_size. intros H. rewrite Z.eqb_neq. destruct (Z.ltb_spec c 0); [lia|]. destruct (Z.ltb_spec capz c); lia. Qed.
Lemma clamp_empty capz c : 0 <= capz -> (clamp_size capz c =? 0) = false -> 0 < c.
Proof. unfold clamp_size. intros H. rewrite Z.eqb_neq. destruct (Z.ltb_spec c 0); [lia|]. destruct (Z.ltb_spec capz c); lia. Qed.

Definition vpend (n : nat) : bool := negb (n =? 0)%nat.
Lemma vctl_counts cap c k n : match vctl cap c k n with
    | CGo c' n' => if vpend n then vpend n' = false /\ c' = c + sg k
                   else c' = c /\ (vpend n' = true -> if is_push k then c < Z.of_nat cap else 0 < c)
    | CReject => True
    | COob c' | CClaim c' _ => c' = c + (if vpend n then sg k else 0)
    end.
Proof.
  unfold vctl. destruct k, n as [|n]; try exact Logic.I; cbn [vpend negb Nat.eqb is_push sg].
  - destruct (_ =? _) eqn:E; [exact Logic.I|]. split; [reflexivity|]. intros _. exact (clamp_full _ _ (Nat2Z.is_nonneg _) E).
  - destruct (_ && _); reflexivity.
  - destruct (_ =? _) eqn:E; [exact Logic.I|]. split; [reflexivity|]. intros _. exact (clamp_empty _ _ (Nat2Z.is_nonneg _) E).
  - destruct (_ && _); unfold sg; cbn; lia.
Qed.
Lemma vctl32_eq cap c k n : (vpend n = true -> - 2 ^ 31 <= c + sg k <= INT_MAX) -> vctl32 cap c k n = vctl cap c k n.
Proof.
  unfold vctl, vctl32. destruct k, n as [|n]; intros H; try reflexivity; specialize (H eq_refl); unfold sg in H; cbn [is_push] in H;
    change (c + -1) with (c - 1) in H; rewrite to_int32_id by exact H; reflexivity.
Qed.

Definition dpend (n : nat) : bool := (n =? 1)%nat.
Lemma dctl_counts cap c k n : match dctl cap c k n with
    | CGo c' n' => if dpend n then dpend n' = false /\ c_n c' = c_n c + sg k
                   else c_n c' = c_n c /\ (dpend n' = true -> if is_push k then c_n c < Z.of_nat cap else 0 < c_n c)
    | CReject => True
    | COob c' | CClaim c' _ => c_n c' = c_n c + (if dpend n then sg k else 0)
    end.
Proof.
  unfold dctl, sg. destruct n as [|[|n]]; cbn [dpend Nat.eqb].
  - destruct (is_push k); destruct (_ =? _) eqn:E; try exact Logic.I; (split; [reflexivity|]); intros _;
      [exact (clamp_full _ _ (Nat2Z.is_nonneg _) E)|exact (clamp_empty _ _ (Nat2Z.is_nonneg _) E)].
  - destruct (is_push k); destruct (_ <? _); cbn [c_n]; try (split; [reflexivity|]); lia.
  - destruct k; cbn; lia.
Qed.
Lemma dctl32_eq cap c k n : (dpend n = true -> - 2 ^ 31 <= c_n c + sg k <= INT_MAX) -> dctl32 cap c k n = dctl cap c k n.
Proof.
  unfold dctl, dctl32, sg. destruct n as [|[|n]]; intros H; try reflexivity. specialize (H eq_refl).
  destruct (is_push k); [|change (c_n c + -1) with (c_n c - 1) in H]; rewrite to_int32_id by exact H; reflexivity.
Qed.

Lemma vec_counter {T} (cap : nat) (M : Z) (s : qshared T Z) ls : Z.of_nat cap + M <= INT_MAX -> - M <= q_c s <= Z.of_nat cap + M ->
  quiescent ls -> Z.of_nat (length ls) <= M ->
  forall sched, run (qstep (vctl32 cap)) sched (s, ls) = run (qstep (vctl cap)) sched (s, ls) /\
    forall s' ls', run (qstep (vctl cap)) sched (s, ls) = Some (s', ls') -> - M <= q_c s' <= Z.of_nat cap + M.
Proof. intros HM. exact (counter_runs (vctl cap) (vctl32 cap) (fun c => c) vpend (Z.of_nat cap) M ltac:(lia) HM eq_refl (vctl_counts cap) (vctl32_eq cap) s ls). Qed.
Lemma deq_counter {T} (cap : nat) (M : Z) (s : qshared T dcnt) ls : Z.of_nat cap + M <= INT_MAX -> - M <= c_n (q_c s) <= Z.of_nat cap + M ->
  quiescent ls -> Z.of_nat (length ls) <= M ->
  forall sched, run (qstep (dctl32 cap)) sched (s, ls) = run (qstep (dctl cap)) sched (s, ls) /\
    forall s' ls', run (qstep (dctl cap)) sched (s, ls) = Some (s', ls') -> - M <= c_n (q_c s') <= Z.of_nat cap + M.
Proof. intros HM. exact (counter_runs (dctl cap) (dctl32 cap) c_n dpend (Z.of_nat cap) M ltac:(lia) HM eq_refl (dctl_counts cap) (dctl32_eq cap) s ls). Qed.

(** ** the unordered containers *)
Section ucounter.
  Context {K V : Type} (kf : V -> K) (hash : K -> Z) (keq : K -> K -> bool) (bc E : nat) (N M : Z).

  (** the thread has counted its call in _occupied_count *)
  Definition counted (pc : upc) : bool :=
    match pc with
    | ISetB | IUnlB (Some _) | ISetL _ _ | ILinkL _ _ | IUnlL _ (Some _) | XDesB _ | XUnlB _ true | XDes _ _ | XPush _ _ _ | XUnl1 _ _ true | XUnl2 _ true => true
    | _ => false
    end.
  (** calls of the thread that may still change _occupied_count *)
  Definition rem (t : cthread K V) : Z := match c_prog t with [] => 0 | _ :: rest => Z.of_nat (length rest) + (if counted (c_pc t) then 0 else 1) end.
  Definition upnd (k : bool) (t : cthread K V) : Z :=
    match c_pc t with IPop _ q => pnd vpend k q | XPush _ _ q => pnd vpend k q | _ => 0 end.

  Lemma upnd_range k t : 0 <= upnd k t <= 1.
  Proof. unfold upnd. destruct (c_pc t); first [apply pnd_range | lia]. Qed.
  Lemma rem_nonneg t : 0 <= rem t.
  Proof. unfold rem. destruct (c_prog t); [lia|]. destruct (counted _); lia. Qed.

  Definition uok (s : cshared V) (t : cthread K V) (s' : cshared V) (t' : cthread K V) : Prop :=
    Z.abs (c_count s' - c_count s) <= rem t - rem t' /\
    (q_c (c_ex s') + upnd true t' <= q_c (c_ex s) + upnd true t \/ q_c (c_ex s') = q_c (c_ex s) /\ q_c (c_ex s) < Z.of_nat E) /\
    (q_c (c_ex s) - upnd false t <= q_c (c_ex s') - upnd false t' \/ q_c (c_ex s') = q_c (c_ex s) /\ 0 < q_c (c_ex s)).

  Lemma rem_go t op rest pc : c_prog t = op :: rest -> rem (cgo t pc) = Z.of_nat (length rest) + (if counted pc then 0 else 1).
  Proof. intros H. unfold rem. cbn [cgo c_prog c_pc]. rewrite H. reflexivity. Qed.
  Lemma rem_fin t op rest o r : c_prog t = op :: rest -> rem (cfinish t o r) = Z.of_nat (length rest).
  Proof. intros H. unfold rem. cbn [cfinish c_prog c_pc counted]. rewrite H. cbn [tail]. destruct rest; cbn [length]; lia. Qed.

  Lemma uok_quiet s t s' op rest pc : c_prog t = op :: rest -> counted (c_pc t) = false \/ counted pc = true -> c_count s' = c_count s -> c_ex s' = c_ex s ->
    (forall k, upnd k (cgo t pc) = 0) -> uok s t s' (cgo t pc).
  Proof.
    intros E1 E2 E3 E4 E5. unfold uok. rewrite E3, E4, !E5, (rem_go t op rest pc E1). pose proof (upnd_range true t). pose proof (upnd_range false t).
    unfold rem. rewrite E1. split; [|lia]. destruct (counted (c_pc t)), (counted pc); try lia.
  Qed.
  Lemma uok_fin s t s' op rest o r : c_prog t = op :: rest -> c_count s' = c_count s -> c_ex s' = c_ex s -> uok s t s' (cfinish t o r).
  Proof.
    intros E1 E3 E4. unfold uok. rewrite E3, E4, (rem_fin t op rest o r E1). pose proof (upnd_range true t). pose proof (upnd_range false t).
    unfold rem. rewrite E1. split; [destruct (counted (c_pc t)); lia|]. change (upnd true (cfinish t o r)) with 0. change (upnd false (cfinish t o r)) with 0. lia.
  Qed.
  Lemma uok_count s t s' op rest pc : c_prog t = op :: rest -> counted (c_pc t) = false -> counted pc = true -> Z.abs (c_count s' - c_count s) = 1 -> c_ex s' = c_ex s ->
    (forall k, upnd k (cgo t pc) = 0) -> uok s t s' (cgo t pc).
  Proof.
    intros E1 E2 E2' E3 E4 E5. unfold uok. rewrite E3, E4, !E5, (rem_go t op rest pc E1), E2'. pose proof (upnd_range true t). pose proof (upnd_range false t).
    unfold rem. rewrite E1, E2. lia.
  Qed.

  Lemma pnd_done k (q : qthread Z) : q_prog q = [] -> pnd vpend k q = 0.
  Proof. intros H. unfold pnd. rewrite H. reflexivity. Qed.

  Lemma ustep_counts i s t s' t' : ustep kf hash keq bc E i s t = Some (s', t') -> uok s t s' t'.
  Proof.
    intros H. unfold ustep in H. destruct (c_prog t) as [|op rest] eqn:E1; [discriminate|].
    destruct (bucket_of hash bc (op_key kf op)) as [b|]; [|discriminate].
    pose proof (uok_fin s t) as F. pose proof (fun s' => uok_quiet s t s' op rest) as Q. pose proof (fun s' => uok_count s t s' op rest) as QC.
    destruct (c_pc t) eqn:E2;
    try solve [ repeat (match type of H with context [match ?x with _ => _ end] => destruct x; try discriminate H end);
      try injection H as <- <-; unfold after_find, after_end, after_prev, again;
      repeat (match goal with |- context [match ?x with _ => _ end] => destruct x end);
      first [ eapply F; [exact E1|reflexivity|reflexivity] | apply Q; [exact E1|rewrite ?E2; cbn; auto|reflexivity|reflexivity|reflexivity]
            | apply QC; [exact E1|reflexivity|reflexivity|cbn [put_count c_count]; lia|reflexivity|reflexivity] ] ].
    - (* pop_back *)
      destruct (qstep (vctl E) i (c_ex s) q) as [[x q']|] eqn:EQ; [|discriminate].
      pose proof (q_counts (vctl E) (fun c => c) vpend (Z.of_nat E) eq_refl (vctl_counts E) i _ _ _ _ EQ) as HQ.
      assert (G : forall pc, counted pc = false -> (forall k, upnd k (cgo t pc) <= pnd vpend k q') -> uok s t (put_ex s x) (cgo t pc)).
      { intros pc Hc Hpc. unfold uok. rewrite (rem_go t op rest pc E1), Hc. cbn [put_ex c_count c_ex]. unfold rem. rewrite E1, E2. cbn [counted].
        pose proof (Hpc true). pose proof (Hpc false). unfold upnd in *. rewrite E2. cbn beta in HQ. split; [lia|]. lia. }
      assert (Z0 : forall k pc, match pc with IPop _ _ | XPush _ _ _ => False | _ => True end -> upnd k (cgo t pc) <= pnd vpend k q').
      { intros k pc Hpc. pose proof (pnd_range vpend k q'). unfold upnd. cbn [cgo c_pc]. destruct pc; try (destruct Hpc; fail); lia. }
      destruct (q_prog q') as [|o q1].
      + destruct (last (q_log q')) as [[z|z| |]|]; try (destruct (0 <=? z); [|try discriminate]); injection H as <- <-; apply G; try reflexivity; intros k; apply Z0; exact Logic.I.
      + injection H as <- <-. apply G; [reflexivity|]. intros k. unfold upnd. cbn [cgo c_pc]. lia.
    - (* push_back *)
      destruct (qstep (vctl E) i (c_ex s) t0) as [[x q']|] eqn:EQ; [|discriminate].
      pose proof (q_counts (vctl E) (fun c => c) vpend (Z.of_nat E) eq_refl (vctl_counts E) i _ _ _ _ EQ) as HQ. injection H as <- <-.
      assert (G : forall pc, counted pc = true -> (forall k, upnd k (cgo t pc) <= pnd vpend k q') -> uok s t (put_ex s x) (cgo t pc)).
      { intros pc Hc Hpc. unfold uok. rewrite (rem_go t op rest pc E1), Hc. cbn [put_ex c_count c_ex]. unfold rem. rewrite E1, E2. cbn [counted].
        pose proof (Hpc true). pose proof (Hpc false). unfold upnd in *. rewrite E2. cbn beta in HQ. split; [lia|]. lia. }
      destruct (q_prog q') as [|o q1]; (apply G; [reflexivity|]); intros k; unfold upnd; cbn [cgo c_pc]; [apply pnd_range|lia].
    - destruct (c_locks s !! p); [|discriminate]. injection H as <- <-. apply Q; [exact E1|destruct ok; cbn; auto|reflexivity|reflexivity|reflexivity].
  Qed.
  Lemma estep_counts i s t s' t' : estep kf hash keq bc E i s t = Some (s', t') -> uok s t s' t'.
  Proof.
    intros H. unfold estep in H. destruct (c_pc t) eqn:E2; try exact (ustep_counts i s t s' t' H);
      (destruct (c_prog t) as [|op rest] eqn:E1; [discriminate|]); destruct (c_values s !! p) as [[v|]|]; try discriminate; injection H as <- <-;
      apply (uok_quiet s t s op rest); try exact E1; try reflexivity; auto.
  Qed.

  (** a kernel of at most M threads with N calls in all, started with the counters in range *)
  Definition uinv32 (n0 : Z) (c : config (S:=cshared V) (L:=cthread K V)) : Prop :=
    Z.of_nat (length c.2) <= M /\ Z.abs (c_count c.1 - n0) + sumZ rem c.2 <= N /\
    q_c (c_ex c.1) + sumZ (upnd true) c.2 <= Z.of_nat E + M /\ - M <= q_c (c_ex c.1) - sumZ (upnd false) c.2.

  Lemma uinv32_step n0 s ls i t s' t' : uinv32 n0 (s, ls) -> ls !! i = Some t -> uok s t s' t' -> uinv32 n0 (s', <[i := t']> ls).
  Proof.
    intros (A & B & D & F) Hi (X & Y & Z). unfold uinv32. cbn [fst snd] in *. rewrite insert_length. split; [exact A|].
    rewrite (sumZ_insert rem _ _ t t' Hi). split; [lia|].
    assert (Hlen : forall k t1, sumZ (upnd k) (<[i := t1]> ls) <= M).
    { intros k t1. pose proof (sumZ_le_length (upnd k) (<[i := t1]> ls) (fun l => proj2 (upnd_range k l))) as W. rewrite insert_length in W. lia. }
    pose proof (Hlen true t') as L1. pose proof (Hlen false t') as L2.
    rewrite !(sumZ_insert _ _ _ t t' Hi). rewrite (sumZ_insert _ _ _ t t' Hi) in L1. rewrite (sumZ_insert _ _ _ t t' Hi) in L2. lia.
  Qed.
  Lemma uinv32_range n0 s ls : uinv32 n0 (s, ls) -> n0 - N <= c_count s <= n0 + N /\ - M <= q_c (c_ex s) <= Z.of_nat E + M.
  Proof.
    intros (A & B & D & F). cbn [fst snd] in *.
    pose proof (sumZ_nonneg rem ls (fun l _ => rem_nonneg l)). pose proof (sumZ_nonneg (upnd true) ls (fun l _ => proj1 (upnd_range true l))).
    pose proof (sumZ_nonneg (upnd false) ls (fun l _ => proj1 (upnd_range false l))). lia.
  Qed.
  Lemma wrap32_id n0 s ls : uinv32 n0 (s, ls) -> 0 <= n0 -> N <= INT_MAX -> n0 + N <= INT_MAX -> Z.of_nat E + M <= INT_MAX -> wrap32 s = s.
  Proof.
    intros H H0 H1 H2 H3. destruct (uinv32_range n0 s ls H) as [A B]. unfold wrap32. unfold INT_MAX in *. rewrite !to_int32_id by (unfold INT_MAX; lia).
    destruct s as [? ? ? ? ? [? ? ? ?]]. reflexivity.
  Qed.
  Lemma rem_start (progs : list (list (cop K V))) : sumZ rem (c_start progs) = Z.of_nat (length (concat progs)).
  Proof.
    induction progs as [|p progs IH]; [reflexivity|]. cbn [c_start fmap list_fmap sumZ concat]. rewrite app_length. unfold c_start in IH. cbn in IH |- *.
    rewrite IH. unfold rem at 1. cbn [c_prog c_pc counted]. destruct p; cbn [length]; lia.
  Qed.
  Lemma uinv32_start s progs : Z.of_nat (length progs) <= M -> Z.of_nat (length (concat progs)) <= N -> - M <= q_c (c_ex s) <= Z.of_nat E + M -> uinv32 (c_count s) (s, c_start progs).
  Proof.
    intros H1 H2 H3. unfold uinv32. cbn [fst snd]. rewrite rem_start. unfold c_start at 1. rewrite fmap_length. split; [exact H1|]. split; [lia|].
    assert (Hz : forall k, sumZ (upnd k) (c_start progs) = 0).
    { intros k. apply sumZ_zero. intros t Ht. apply elem_of_list_fmap in Ht as (p & -> & _). reflexivity. }
    rewrite !Hz. lia.
  Qed.
End ucounter.

Section uruns.
  Context {K V : Type} (kf : V -> K) (hash : K -> Z) (keq : K -> K -> bool) (bc E : nat).
  Lemma u_counter_gen (f : nat -> cshared V -> cthread K V -> option (cshared V * cthread K V)) :
    (forall i s t s' t', f i s t = Some (s', t') -> uok E s t s' t') ->
    forall (s : cshared V) (progs : list (list (cop K V))) (M : Z),
    Z.of_nat (length progs) <= M -> Z.of_nat E + M <= INT_MAX -> - M <= q_c (c_ex s) <= Z.of_nat E + M ->
    0 <= c_count s -> c_count s + Z.of_nat (length (concat progs)) <= INT_MAX ->
    forall sched, run (fun i s t => match f i s t with Some (s', t') => Some (wrap32 s', t') | None => None end) sched (s, c_start progs) = run f sched (s, c_start progs) /\
      forall s' ls', run f sched (s, c_start progs) = Some (s', ls') ->
        Z.abs (c_count s' - c_count s) <= Z.of_nat (length (concat progs)) /\ - M <= q_c (c_ex s') <= Z.of_nat E + M.
  Proof.
    intros Hf s progs M H1 H2 H3 H4 H5 sched. pose proof (uinv32_start E _ M s progs H1 (Z.le_refl _) H3) as I0.
    assert (St : forall s1 ls i l s' l', uinv32 E (Z.of_nat (length (concat progs))) M (c_count s) (s1, ls) -> ls !! i = Some l -> f i s1 l = Some (s', l') ->
      uinv32 E (Z.of_nat (length (concat progs))) M (c_count s) (s', <[i := l']> ls)).
    { intros s1 ls i l s' l' HI Hi HF. exact (uinv32_step E _ M _ _ _ _ _ _ _ HI Hi (Hf _ _ _ _ _ HF)). }
    split.
    - refine (run_agree f _ _ _ St sched _ I0). intros s1 ls i l HI Hi. destruct (f i s1 l) as [[s' l']|] eqn:F; [|reflexivity].
      rewrite (wrap32_id E _ M (c_count s) s' _ (St _ _ _ _ _ _ HI Hi F)) by lia. reflexivity.
    - intros s' ls' R. pose proof (run_keeps f _ St sched _ _ I0 R) as HI. destruct (uinv32_range E _ M _ _ _ HI) as [A B]. lia.
  Qed.
End uruns.
