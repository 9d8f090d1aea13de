(** Kernels that only push at the end, or only pop there: vector and stack are stacks. *)
From Verif Require Import Base Conc AtomicModel SlotModel SlotSpec SlotProofs VectorModel VectorProofs VectorConcProofs DequeModel DequeSpec DequeProofs DequeConcProofs FifoSpec FifoProofs.


Section pd.
  Context {T : Type}.
  (** calls that have been counted but have not claimed a slot *)
  Definition pd (t : qthread T) : Z := match q_pc t with QCtl 2 => 1 | _ => 0 end.
  Lemma pd_cases t : pd t = 0 \/ pd t = 1.
  Proof. unfold pd. destruct (q_pc t) as [|[|[|[|]]]| | | | | | | |]; auto. Qed.
  Lemma pd_one t : pd t = 1 -> q_pc t = QCtl 2.
  Proof. unfold pd. destruct (q_pc t) as [|[|[|[|]]]| | | | | | | |]; discriminate || reflexivity. Qed.
  Fixpoint pendl (k : nat) (ls : list (qthread T)) : list (nat * qop T) :=
    match ls with
    | [] => []
    | t :: ls => (if pd t =? 1 then match q_prog t with op :: _ => [(k, op)] | [] => [] end else []) ++ pendl (S k) ls
    end.
  Lemma pendl_length k ls : (forall t, t ∈ ls -> pd t = 1 -> q_prog t <> []) -> Z.of_nat (length (pendl k ls)) = sumZ pd ls.
  Proof.
    revert k. induction ls as [|t ls IH]; intros k H; [reflexivity|]. cbn [pendl]. rewrite sumZ_cons, app_length, Nat2Z.inj_add, IH by (intros u Hu; apply H; right; exact Hu). f_equal.
    destruct (pd_cases t) as [E|E]; rewrite E; [reflexivity|]. cbn. pose proof (H t ltac:(left) E). destruct (q_prog t); [congruence|reflexivity].
  Qed.
  Lemma pendl_in k ls x : x ∈ pendl k ls -> (k <= x.1 < k + length ls)%nat /\ exists t rest, ls !! (x.1 - k)%nat = Some t /\ pd t = 1 /\ q_prog t = x.2 :: rest.
  Proof.
    revert k. induction ls as [|t ls IH]; intros k; [intros H; inversion H|]. cbn [pendl length]. rewrite elem_of_app. intros [H|H].
    - destruct (Z.eqb_spec (pd t) 1); [|inversion H]. destruct (q_prog t) as [|op rest] eqn:E; [inversion H|]. apply elem_of_list_singleton in H as ->. cbn. split; [lia|]. rewrite Nat.sub_diag. exists t, rest. auto.
    - destruct (IH (S k) H) as (H1 & u & rest & H2 & H3). split; [lia|]. exists u, rest. replace (x.1 - k)%nat with (S (x.1 - S k)) by lia. auto.
  Qed.
  Lemma pendl_calls (g : nat -> qop T -> qres T) : forall ls k j, exists r,
    calls_by j (imap (fun w (x : nat * qop T) => (x.1, (x.2, g w x.2))) (pendl k ls)) =
    if (k <=? j)%nat then match ls !! (j - k)%nat with Some t => if pd t =? 1 then match q_prog t with op :: _ => [(op, r)] | [] => [] end else [] | None => [] end else [].
  Proof.
    intros ls. revert g. induction ls as [|t ls IH]; intros g k j; [exists Refused; destruct (k <=? j)%nat; [rewrite lookup_nil|]; reflexivity|]. cbn [pendl]. rewrite imap_app, calls_by_app.
    set (pre := (if pd t =? 1 then match q_prog t with op :: _ => [(k, op)] | [] => [] end else [] : list (nat * qop T))).
    destruct (IH (fun w => g (length pre + w)%nat) (S k) j) as [r Hr]. cbn beta in Hr |- *. rewrite Hr. clear Hr IH.
    destruct (Nat.leb_spec (S k) j) as [H1|H1].
    - exists r. destruct (Nat.leb_spec k j); [|lia]. replace (j - k)%nat with (S (j - S k)) by lia. cbn [lookup list_lookup].
      assert (E : calls_by j (imap (fun w (x : nat * qop T) => (x.1, (x.2, g w x.2))) pre) = []); [|rewrite E; reflexivity].
      unfold pre. destruct (pd t =? 1); [|reflexivity]. destruct (q_prog t) as [|op rest]; [reflexivity|]. change (calls_by j [(k, (op, g 0%nat op))] = []). rewrite calls_by_one, decide_False by lia. reflexivity.
    - destruct (Nat.leb_spec k j) as [H2|H2].
      + assert (j = k) as -> by lia. rewrite Nat.sub_diag. cbn [lookup list_lookup]. rewrite app_nil_r. unfold pre. destruct (pd t =? 1); [|exists r; reflexivity]. destruct (q_prog t) as [|op rest]; [exists r; reflexivity|].
        exists (g 0%nat op). change (calls_by k [(k, (op, g 0%nat op))] = [(op, g 0%nat op)]). rewrite calls_by_one, decide_True by reflexivity. reflexivity.
      + exists r. rewrite app_nil_r. unfold pre. destruct (pd t =? 1); [|reflexivity]. destruct (q_prog t) as [|op rest]; [reflexivity|]. change (calls_by j [(k, (op, g 0%nat op))] = []). rewrite calls_by_one, decide_False by lia. reflexivity.
  Qed.
End pd.
Definition pendn (n : nat) : Z := if (n =? 2)%nat then 1 else 0.
Lemma pd_pendn {T} (t : qthread T) n : q_pc t = QCtl n -> pd t = pendn n.
Proof. intros E. unfold pd, pendn. rewrite E. destruct n as [|[|[|]]]; reflexivity. Qed.

(** ** calls of one kind: the calls that claim a slot, in the order in which they do, then those that are refused *)
Section exact.
  Context {T C : Type} (ctl : C -> qkind -> nat -> cres C) (cap : nat) (idx slot : nat -> nat).
  Context (Hidx : forall k, (k < cap)%nat -> idx (slot k) = k /\ (slot k < cap)%nat).
  Context (progs : list (list (qop T))) (start : qshared T C).
  Context (Hfacts : forall s ls, reach (qstep ctl) (start, q_start progs) (s, ls) -> sfacts cap s ls).
  (** [N] claims can be made, [w] have been made, the next one is of slot [slotw w]; [d] calls have been counted without having claimed *)
  Context (k0 : qkind) (N : nat) (slotw : nat -> nat) (R : C -> Z -> nat -> Prop).
  Context (HR : forall c d w, R c d w -> 0 <= d /\ Z.of_nat w + d <= Z.of_nat N).
  Context (Hctl : forall c d w n, R c d w -> (n <= 2)%nat -> pendn n <= d ->
    match ctl c k0 n with
    | CGo c' n' => R c' (d + pendn n') w /\ pendn n = 0
    | CReject => Z.of_nat N <= Z.of_nat w + d /\ pendn n = 0
    | COob c' => R c' d w /\ Z.of_nat N <= Z.of_nat w + d /\ pendn n = 0
    | CClaim c' p => R c' (d - pendn n) (S w) /\ p = slotw w
    end).
  Notation step := (qstep (T:=T) ctl).
  Context (Q : qop T -> Prop) (HQ : forall op, Q op -> kind_of op = k0) (Hop : forall p op, p ∈ progs -> op ∈ p -> Q op).
  (** values and popping threads by claims, the result of the w-th claiming call, the abstract state *)
  Context (Wf : list (nat * qop T) -> list T) (Pf : list (nat * qop T) -> list nat) (res : nat -> qop T -> qres T) (st : list (nat * qop T) -> list T).
  Notation ccore := (core (C:=C) cap idx slot progs).
  Context (Hclaim : forall s ls cs H i t op rest c, ccore s ls (Wf cs) (Pf cs) H -> Forall (fun x => Q x.2) cs -> (length cs < N)%nat -> ls !! i = Some t -> claimed_at (q_pc t) = None -> q_prog t = op :: rest -> Q op ->
    ccore (with_c s c) (<[i := goto t (QTry (slotw (length cs)))]> ls) (Wf (cs ++ [(i, op)])) (Pf (cs ++ [(i, op)])) (H ++ [(i, (op, res (length cs) op))])).
  Context (Hst : forall cs i op, Forall (fun x => Q x.2) cs -> Q op -> (length cs < N)%nat -> lifo_call cap 0 (st cs) (op, res (length cs) op) (st (cs ++ [(i, op)]))).
  Context (Hfull : forall cs op r, Forall (fun x => Q x.2) cs -> Q op -> length cs = N -> r = Refused \/ r = OutOfBounds -> lifo_call cap 0 (st cs) (op, r) (st cs)).
  Context (Hcore0 : ccore start (q_start progs) (Wf []) (Pf []) []) (R0 : R (q_c start) 0 0%nat).
  Implicit Types (s : qshared T C) (ls : list (qthread T)) (cs : list (nat * qop T)) (H Hr : list (nat * (qop T * qres T))).

  Definition evs cs : list (nat * (qop T * qres T)) := imap (fun w (x : nat * qop T) => (x.1, (x.2, res w x.2))) cs.
  Lemma evs_app cs1 cs2 : evs (cs1 ++ cs2) = evs cs1 ++ imap (fun w (x : nat * qop T) => (x.1, (x.2, res (length cs1 + w) x.2))) cs2.
  Proof using All. unfold evs. rewrite imap_app. reflexivity. Qed.
  Lemma evs_snoc cs i op : evs (cs ++ [(i, op)]) = evs cs ++ [(i, (op, res (length cs) op))].
  Proof using All. rewrite evs_app. cbn. rewrite Nat.add_0_r. reflexivity. Qed.
  Lemma lifo_evs cs : Forall (fun x => Q x.2) cs -> (length cs <= N)%nat -> lifo cap 0 (st []) (evs cs) (st cs).
  Proof using All.
    induction cs as [|[i op] cs IH] using rev_ind; intros HF HN; [reflexivity|]. apply Forall_app in HF as [HF1 HF2]. inversion HF2 as [|? ? HQ1 _]; subst. rewrite app_length in HN. cbn in HN.
    rewrite evs_snoc. eapply lifo_snoc; [apply IH; [exact HF1|lia]|]. apply Hst; [exact HF1|exact HQ1|lia].
  Qed.
  Lemma lifo_refused cs H h : Forall (fun x => Q x.2) cs -> length cs = N -> (forall x, x ∈ h -> Q x.2.1 /\ (x.2.2 = Refused \/ x.2.2 = OutOfBounds)) -> lifo cap 0 (st []) H (st cs) -> lifo cap 0 (st []) (H ++ h) (st cs).
  Proof using All.
    intros HF HN. revert H. induction h as [|[i [op r]] h IH]; intros H Hh HL; [rewrite app_nil_r; exact HL|].
    change ((i, (op, r)) :: h) with ([(i, (op, r))] ++ h). rewrite app_assoc. apply IH; [intros x Hx; apply Hh; right; exact Hx|]. destruct (Hh (i, (op, r)) ltac:(left)) as [H1 H2]. eapply lifo_snoc; [exact HL|]. apply Hfull; assumption.
  Qed.
  (** only the order of the calls of each thread matters to [core] *)
  Lemma core_reorder s ls W P H H' : ccore s ls W P H -> (forall j, calls_by j H' = calls_by j H) -> (forall x, x ∈ H' -> x ∈ H) -> ccore s ls W P H'.
  Proof using All.
    intros K E1 E2. split; [apply K|apply K| |apply K|intros x Hx; apply K, E2; exact Hx|apply K].
    intros j t Hj. destruct (k_thr _ _ _ _ _ _ _ _ _ K j t Hj) as (past & X1 & X2 & X3 & X4). exists past. rewrite E1. auto.
  Qed.

  Record ex s ls cs Hr : Prop := {
    e_core : ccore s ls (Wf cs) (Pf cs) (evs cs ++ Hr);
    e_R : R (q_c s) (sumZ pd ls) (length cs);
    e_Q : Forall (fun x => Q x.2) cs;
    e_full : Hr <> [] -> Z.of_nat (length cs) + sumZ pd ls = Z.of_nat N;
    e_rej : forall x, x ∈ Hr -> Q x.2.1 /\ (x.2.2 = Refused \/ x.2.2 = OutOfBounds);
    e_late : forall j t, ls !! j = Some t -> pd t = 1 -> calls_by j Hr = []
  }.
  Definition view (ls1 ls : list (qthread T)) h : Prop := forall j t1 prog, ls1 !! j = Some t1 -> progs !! j = Some prog -> exists t, ls !! j = Some t /\
      ((calls_by j h = zip prog (q_log t1) /\ (pd t = 1 -> q_pc t1 <> QIdle /\ q_prog t1 = q_prog t)) \/
       (pd t = 0 /\ exists op rest r, q_pc t1 <> QIdle /\ q_prog t1 = op :: rest /\ calls_by j h = zip prog (q_log t1) ++ [(op, r)])).
  (** an earlier state of the run *)
  Definition seen (ls1 ls : list (qthread T)) cs Hr : Prop :=
    (exists cs1 cs2, cs = cs1 ++ cs2 /\ accounts progs ls1 (evs cs1)) \/
    (Hr <> [] /\ exists hr1 hr2, Hr = hr1 ++ hr2 /\ view ls1 ls (evs cs ++ hr1)).

  Lemma view_now s ls cs Hr : ex s ls cs Hr -> view ls ls (evs cs ++ Hr).
  Proof using All.
    intros V. pose proof (e_core _ _ _ _ V) as K. intros j t prog Hj Hp. exists t. split; [exact Hj|].
    destruct (k_thr _ _ _ _ _ _ _ _ _ K j t Hj) as (past & Hpr & HL & HC & _). rewrite Hp in Hpr. injection Hpr as ->. rewrite zip_prefix by exact HL. rewrite HC.
    unfold emitted. destruct (claimed_at (q_pc t)) as [p|] eqn:Ec.
    - assert (Hp0 : pd t = 0) by (unfold pd; destruct (q_pc t); try reflexivity; discriminate).
      assert (Hni : q_pc t <> QIdle) by (intros E; rewrite E in Ec; discriminate). destruct (q_prog t) as [|[k x0|k] rest] eqn:Epr.
      + left. rewrite app_nil_r. split; [reflexivity|]. lia.
      + right. split; [exact Hp0|]. exists (QPush k x0), rest, (Pushed x0). auto.
      + destruct (Wf cs !! idx p) as [y|]; [|left; rewrite app_nil_r; split; [reflexivity|lia]]. right. split; [exact Hp0|]. exists (QPop k), rest, (Popped y). auto.
    - left. split; [destruct (q_prog t) as [|[]]; apply app_nil_r|]. intros H1. split; [|reflexivity]. rewrite (pd_one t H1). discriminate.
  Qed.
  Lemma seen_now s ls cs Hr : ex s ls cs Hr -> seen ls ls cs Hr.
  Proof using All.
    intros V. pose proof (view_now _ _ _ _ V) as VN. pose proof (e_core _ _ _ _ V) as K. destruct Hr as [|x Hr'].
    - left. exists cs, []. rewrite app_nil_r. split; [reflexivity|]. pose proof (core_accounts _ _ _ _ _ _ _ _ _ K) as A. rewrite app_nil_r in A. exact A.
    - right. split; [discriminate|]. exists (x :: Hr'), []. rewrite app_nil_r. auto.
  Qed.

  (** a step: how the claims, the refused calls and the view of earlier states change *)
  Lemma ex_step s ls cs Hr s' ls' : sfacts cap s ls -> ex s ls cs Hr -> cstep step (s, ls) (s', ls') ->
    exists cs' Hr', ex s' ls' cs' Hr' /\ forall ls1, seen ls1 ls cs Hr -> seen ls1 ls' cs' Hr'.
  Proof using All.
    intros F V Hs. inversion Hs as [s0 ls0 i t s1 t' Hi E]; subst. clear Hs. pose proof (elem_of_list_lookup_2 _ _ _ Hi) as Hin. pose proof (lookup_lt_Some _ _ _ Hi) as Hlt. pose proof (e_core _ _ _ _ V) as K.
    destruct (f_tok _ _ _ F t Hin) as [_ Htk].
    assert (SUM : forall u, sumZ pd (<[i := u]> ls) = sumZ pd ls - pd t + pd u) by (intros u; rewrite (sumZ_insert _ _ _ _ _ Hi); reflexivity).
    (* steps that change neither claims nor refused calls *)
    assert (SAME : forall s2 u, ccore s2 (<[i := u]> ls) (Wf cs) (Pf cs) (evs cs ++ Hr) -> R (q_c s2) (sumZ pd (<[i := u]> ls)) (length cs) -> (pd u = pd t \/ Hr = [] /\ pd t = 0) -> (pd u = 1 -> q_prog u = q_prog t) ->
      exists cs' Hr', ex s2 (<[i := u]> ls) cs' Hr' /\ forall ls1, seen ls1 ls cs Hr -> seen ls1 (<[i := u]> ls) cs' Hr').
    { intros s2 u K2 R2 Hpd Hpg. exists cs, Hr. split.
      - split; [exact K2|exact R2|apply V| |apply V|].
        + intros Hne. rewrite SUM. pose proof (e_full _ _ _ _ V Hne). destruct Hpd as [Hpd|[Hpd _]]; [lia|congruence].
        + intros j v Hj Hv. destruct (decide (i = j)) as [<-|Hne]; [|rewrite list_lookup_insert_ne in Hj by exact Hne; exact (e_late _ _ _ _ V j v Hj Hv)].
          rewrite list_lookup_insert in Hj by exact Hlt. injection Hj as <-. destruct Hpd as [Hpd|[-> _]]; [|reflexivity]. apply (e_late _ _ _ _ V i t Hi). congruence.
      - intros ls1 [S1|(Hne & hr1 & hr2 & EH & S1)]; [left; exact S1|right]. split; [exact Hne|]. exists hr1, hr2. split; [exact EH|]. intros j t1 prog H1 H2. destruct (S1 j t1 prog H1 H2) as (v & Hv & S2).
        destruct (decide (i = j)) as [<-|Hij]; [|exists v; rewrite list_lookup_insert_ne by exact Hij; auto]. rewrite Hi in Hv. injection Hv as <-. exists u. split; [apply list_lookup_insert; exact Hlt|].
        destruct Hpd as [Hpd|[Hpd _]]; [|congruence]. rewrite Hpd. destruct S2 as [[S2 S3]|S2]; [left|right; exact S2]. split; [exact S2|]. intros X. rewrite (Hpg ltac:(congruence)). exact (S3 X). }
    destruct (claimed_at (q_pc t)) as [p|] eqn:Ec.
    { destruct (core_local ctl cap idx slot Hidx progs s ls _ _ _ i t s' t' p F K Hi Ec E) as (K' & Hc & Hpc).
      assert (P1 : pd t = 0) by (unfold pd; destruct (q_pc t); try reflexivity; discriminate).
      assert (P2 : pd t' = 0) by (unfold pd; destruct Hpc as [[_ P2]|[_ P2]]; destruct (q_pc t'); try reflexivity; discriminate).
      apply SAME; [exact K'| |left; congruence|lia]. rewrite Hc, SUM, P1, P2. replace (sumZ pd ls - 0 + 0) with (sumZ pd ls) by lia. apply V. }
    unfold qstep in E. destruct (q_prog t) as [|op rest] eqn:Epr; [discriminate|]. destruct (k_thr _ _ _ _ _ _ _ _ _ K i t Hi) as (past & Hpr & _). rewrite Epr in Hpr.
    assert (Hk : Q op). { apply (Hop _ op (elem_of_list_lookup_2 _ _ _ Hpr)). apply elem_of_app. right. left. }
    (* refused calls *)
    assert (REJ : forall c r, R c (sumZ pd ls) (length cs) -> Z.of_nat N <= Z.of_nat (length cs) + sumZ pd ls -> pd t = 0 -> r = Refused \/ r = OutOfBounds ->
      exists cs' Hr', ex (with_c s c) (<[i := finish t r]> ls) cs' Hr' /\ forall ls1, seen ls1 ls cs Hr -> seen ls1 (<[i := finish t r]> ls) cs' Hr').
    { intros c r R2 HN P0 Hrr. destruct (HR _ _ _ R2) as [_ HN2]. exists cs, (Hr ++ [(i, (op, r))]). split.
      - split.
        + rewrite app_assoc. exact (core_reject cap idx slot progs _ _ _ _ _ _ _ op rest r c K Hi Ec Epr).
        + rewrite SUM, P0. assert (pd (finish t r) = 0) as -> by reflexivity. replace (sumZ pd ls - 0 + 0) with (sumZ pd ls) by lia. exact R2.
        + apply V.
        + intros _. rewrite SUM, P0. assert (pd (finish t r) = 0) as -> by reflexivity. lia.
        + intros x Hx. apply elem_of_app in Hx as [Hx|Hx]; [apply (e_rej _ _ _ _ V x Hx)|]. apply elem_of_list_singleton in Hx as ->. auto.
        + intros j v Hj Hv. destruct (decide (i = j)) as [<-|Hne].
          * rewrite list_lookup_insert in Hj by exact Hlt. injection Hj as <-. discriminate.
          * rewrite list_lookup_insert_ne in Hj by exact Hne. rewrite calls_by_app, calls_by_one, decide_False by exact Hne. rewrite app_nil_r. exact (e_late _ _ _ _ V j v Hj Hv).
      - intros ls1 [S1|(Hne & hr1 & hr2 & EH & S1)]; [left; exact S1|right]. split; [intros X; apply app_eq_nil in X as [_ X]; discriminate|]. exists hr1, (hr2 ++ [(i, (op, r))]). split; [rewrite EH, app_assoc; reflexivity|].
        intros j t1 prog H1 H2. destruct (S1 j t1 prog H1 H2) as (v & Hv & S2). destruct (decide (i = j)) as [<-|Hij]; [|exists v; rewrite list_lookup_insert_ne by exact Hij; auto].
        rewrite Hi in Hv. injection Hv as <-. exists (finish t r). split; [apply list_lookup_insert; exact Hlt|]. assert (P1 : pd (finish t r) = 0) by reflexivity. rewrite P1. destruct S2 as [[S2 _]|[_ S2]]; [left; split; [exact S2|discriminate]|right; auto]. }
    destruct (q_pc t) as [|n| | | | | | | |] eqn:Epc; try discriminate Ec.
    { injection E as <- <-. rewrite <- Epc in Ec. apply SAME; [|rewrite SUM|left|intros _; exact Epr].
      - replace s with (with_c s (q_c s)) by (destruct s; reflexivity). exact (core_go cap idx slot progs _ _ _ _ _ _ _ _ _ K Hi Ec).
      - assert (pd t = 0) as -> by (unfold pd; rewrite Epc; reflexivity). assert (pd (goto t (QCtl 0)) = 0) as -> by reflexivity. replace (sumZ pd ls - 0 + 0) with (sumZ pd ls) by lia. apply V.
      - unfold pd. rewrite Epc. reflexivity. }
    destruct Htk as [Hn2 _]. rewrite (HQ op Hk) in E. assert (Hpd : pd t = pendn n) by (apply pd_pendn; exact Epc). rewrite <- Epc in Ec.
    assert (Hle : pendn n <= sumZ pd ls) by (rewrite <- Hpd; apply (sumZ_ge_elem pd ls i t); [intros u _; destruct (pd_cases u); lia|exact Hi]).
    pose proof (Hctl _ _ _ n (e_R _ _ _ _ V) Hn2 Hle) as X. destruct (ctl (q_c s) k0 n) as [c n'| |c|c p] eqn:Ectl; injection E as <- <-.
    - destruct X as [X X0]. apply SAME; [exact (core_go cap idx slot progs _ _ _ _ _ _ _ _ _ K Hi Ec)| | |intros _; exact Epr].
      + rewrite SUM, Hpd, X0, (pd_pendn (goto t (QCtl n')) n' eq_refl). replace (sumZ pd ls - 0 + pendn n') with (sumZ pd ls + pendn n') by lia. exact X.
      + rewrite (pd_pendn (goto t (QCtl n')) n' eq_refl), Hpd, X0. destruct (decide (Hr = [])) as [|Hne]; [right; auto|left]. destruct (HR _ _ _ X) as [_ X1]. pose proof (e_full _ _ _ _ V Hne). unfold pendn in *. destruct (n' =? 2)%nat; lia.
    - destruct X as [X X0]. replace s with (with_c s (q_c s)) by (destruct s; reflexivity). apply REJ; [apply V|exact X|lia|auto].
    - destruct X as (X & X1 & X0). apply REJ; [exact X|exact X1|lia|auto].
    - destruct X as [X ->]. destruct (HR _ _ _ X) as [_ HN]. assert (Hlen : (length cs < N)%nat) by (rewrite <- Hpd in *; destruct (HR _ _ _ X); lia).
      assert (Hp1 : Hr <> [] -> pd t = 1). { intros Hne. pose proof (e_full _ _ _ _ V Hne). destruct (pd_cases t); lia. }
      assert (Hci : calls_by i Hr = []). { destruct (decide (Hr = [])) as [-> |Hne]; [reflexivity|]. exact (e_late _ _ _ _ V i t Hi (Hp1 Hne)). }
      exists (cs ++ [(i, op)]), Hr. set (u := goto t (QTry (slotw (length cs)))). assert (Pu : pd u = 0) by reflexivity. split.
      + split.
        * apply (core_reorder _ _ _ _ ((evs cs ++ Hr) ++ [(i, (op, res (length cs) op))])).
          -- exact (Hclaim s ls cs _ i t op rest c K (e_Q _ _ _ _ V) Hlen Hi Ec Epr Hk).
          -- intros j. rewrite evs_snoc, !calls_by_app, calls_by_one. destruct (decide (i = j)) as [<-|]; [rewrite Hci, !app_nil_r; reflexivity|]. rewrite !app_nil_r. reflexivity.
          -- intros x. rewrite evs_snoc, !elem_of_app. tauto.
        * rewrite SUM, Hpd, Pu, Z.add_0_r, app_length. cbn [length]. rewrite Nat.add_1_r. exact X.
        * apply Forall_app. split; [apply V|]. constructor; [exact Hk|constructor].
        * intros Hne. rewrite SUM, (Hp1 Hne), Pu, app_length. cbn [length]. pose proof (e_full _ _ _ _ V Hne). lia.
        * apply V.
        * intros j v Hj Hv. destruct (decide (i = j)) as [<-|Hne]; [rewrite list_lookup_insert in Hj by exact Hlt; injection Hj as <-; discriminate|]. rewrite list_lookup_insert_ne in Hj by exact Hne. exact (e_late _ _ _ _ V j v Hj Hv).
      + intros ls1 [(cs1 & cs2 & -> & S1)|(Hne & hr1 & hr2 & EH & S1)].
        * left. exists cs1, (cs2 ++ [(i, op)]). rewrite app_assoc. auto.
        * right. split; [exact Hne|]. exists hr1, hr2. split; [exact EH|]. intros j t1 prog H1 H2. destruct (S1 j t1 prog H1 H2) as (v & Hv & S2). rewrite evs_snoc. destruct (decide (i = j)) as [<-|Hij].
          -- rewrite Hi in Hv. injection Hv as <-. exists u. split; [apply list_lookup_insert; exact Hlt|]. right. split; [exact Pu|]. destruct S2 as [[S2 S3]|[S2 _]]; [|rewrite (Hp1 Hne) in S2; discriminate].
             destruct (S3 (Hp1 Hne)) as [S4 S5]. exists op, rest, (res (length cs) op). split; [exact S4|]. split; [congruence|].
             assert (Hc1 : calls_by i hr1 = []). { rewrite EH, calls_by_app in Hci. apply app_eq_nil in Hci as [Hci _]. exact Hci. }
             rewrite !calls_by_app in *. rewrite Hc1 in *. rewrite app_nil_r in *. rewrite calls_by_one, decide_True by reflexivity. rewrite S2. reflexivity.
          -- exists v. rewrite list_lookup_insert_ne by exact Hij. split; [exact Hv|].
             assert (Ej : calls_by j ((evs cs ++ [(i, (op, res (length cs) op))]) ++ hr1) = calls_by j (evs cs ++ hr1)) by (rewrite !calls_by_app, calls_by_one, decide_False by exact Hij; rewrite app_nil_r; reflexivity).
             rewrite Ej. exact S2.
  Qed.

  Lemma ex_order s ls cs Hr (past : list (qshared T C * list (qthread T))) : sfacts cap s ls -> ex s ls cs Hr -> (forall c1, c1 ∈ past -> seen c1.2 ls cs Hr) ->
    exists H M, lifo cap 0 (st []) H M /\ in_order progs past ls H /\ (quiescent ls -> M = st cs).
  Proof using All.
    intros F V HS. pose proof (e_core _ _ _ _ V) as K. destruct (HR _ _ _ (e_R _ _ _ _ V)) as [Hd0 HN]. destruct (decide (Hr = [])) as [-> |Hne].
    - exists (evs cs), (st cs). split; [apply lifo_evs; [apply V|lia]|]. split; [|auto]. pose proof (core_accounts _ _ _ _ _ _ _ _ _ K) as A. rewrite app_nil_r in A. split; [exact A|].
      intros c1 Hc. destruct (HS c1 Hc) as [(cs1 & cs2 & -> & S1)|[X _]]; [|congruence]. rewrite evs_app. eauto.
    - set (pl := pendl 0 ls).
      assert (Hpl : Z.of_nat (length pl) = sumZ pd ls).
      { apply pendl_length. intros t Ht Hp E. destruct (f_tok _ _ _ F t Ht) as [_ Htk]. rewrite (pd_one t Hp) in Htk. destruct Htk as [_ Htk]. congruence. }
      assert (HQl : Forall (fun x => Q x.2) (cs ++ pl)).
      { apply Forall_app. split; [apply V|]. apply Forall_forall. intros x Hx. destruct (pendl_in 0 ls x Hx) as (_ & t & rest & Ht & _ & Hp). destruct (k_thr _ _ _ _ _ _ _ _ _ K _ t Ht) as (p0 & Hpr & _).
        apply (Hop _ _ (elem_of_list_lookup_2 _ _ _ Hpr)). apply elem_of_app. right. rewrite Hp. left. }
      assert (HNl : length (cs ++ pl) = N) by (rewrite app_length; pose proof (e_full _ _ _ _ V Hne); lia).
      (* the calls of each thread *)
      assert (PC : forall j t hr1 hr2, ls !! j = Some t -> Hr = hr1 ++ hr2 -> exists r, calls_by j (evs (cs ++ pl) ++ hr1) = calls_by j (evs cs ++ hr1) ++ if pd t =? 1 then match q_prog t with op :: _ => [(op, r)] | [] => [] end else []).
      { intros j t hr1 hr2 Hj EH. rewrite evs_app. destruct (pendl_calls (fun w => res (length cs + w)) ls 0 j) as [r Hpc]. exists r. rewrite !calls_by_app. fold pl in Hpc. rewrite Hpc. cbn [Nat.leb]. rewrite Nat.sub_0_r, Hj.
        destruct (Z.eqb_spec (pd t) 1) as [Ep|Ep]; [|rewrite !app_nil_r; reflexivity]. pose proof (e_late _ _ _ _ V j t Hj Ep) as EL. rewrite EH, calls_by_app in EL. apply app_eq_nil in EL as [EL _]. rewrite EL, !app_nil_r. reflexivity. }
      assert (DOM : forall x, x ∈ evs (cs ++ pl) -> (x.1 < length progs)%nat).
      { intros x Hx. rewrite evs_app in Hx. apply elem_of_app in Hx as [Hx|Hx]; [apply (k_dom _ _ _ _ _ _ _ _ _ K); apply elem_of_app; left; exact Hx|].
        apply elem_of_lookup_imap in Hx as (w & y & -> & Hy). apply elem_of_list_lookup_2 in Hy. destruct (pendl_in 0 ls y Hy) as (Hlt & _). cbn. rewrite <- (k_len _ _ _ _ _ _ _ _ _ K). lia. }
      exists (evs (cs ++ pl) ++ Hr), (st (cs ++ pl)). split; [|split].
      + apply lifo_refused; [exact HQl|exact HNl|apply V|]. apply lifo_evs; [exact HQl|lia].
      + assert (ACC : forall ls1 hr1 hr2, Hr = hr1 ++ hr2 -> view ls1 ls (evs cs ++ hr1) -> accounts progs ls1 (evs (cs ++ pl) ++ hr1)).
        { intros ls1 hr1 hr2 EH S1. split.
          - intros x Hx. apply elem_of_app in Hx as [Hx|Hx]; [exact (DOM x Hx)|]. apply (k_dom _ _ _ _ _ _ _ _ _ K). rewrite EH, !elem_of_app. auto.
          - intros j t1 prog H1 H2. destruct (S1 j t1 prog H1 H2) as (t & Ht & S2). destruct (PC j t hr1 hr2 Ht EH) as [r Hpc]. rewrite Hpc. destruct S2 as [[S2 S3]|[S2 S3]].
            + destruct (Z.eqb_spec (pd t) 1) as [Ep|Ep]; [|left; rewrite app_nil_r; exact S2]. destruct (S3 Ep) as [S4 S5]. destruct (q_prog t) as [|op rest] eqn:Epr; [left; rewrite app_nil_r; exact S2|].
              right. exists op, rest, r. split; [exact S4|]. split; [exact S5|]. rewrite S2. reflexivity.
            + rewrite S2. cbn. rewrite app_nil_r. right. exact S3. }
        split.
        * apply (ACC ls Hr []); [rewrite app_nil_r; reflexivity|]. exact (view_now _ _ _ _ V).
        * intros c1 Hc. destruct (HS c1 Hc) as [(cs1 & cs2 & -> & S1)|(_ & hr1 & hr2 & EH & S1)].
          -- rewrite <- app_assoc, evs_app, <- app_assoc. eauto.
          -- exists (evs (cs ++ pl) ++ hr1), hr2. split; [rewrite EH, app_assoc; reflexivity|]. exact (ACC c1.2 hr1 hr2 EH S1).
      + intros Hq. f_equal. assert (pl = []); [|subst pl; rewrite H, app_nil_r; reflexivity]. destruct pl as [|x pl'] eqn:E; [reflexivity|]. exfalso. rewrite sumZ_zero in Hpl by (intros t Ht; unfold pd; rewrite (Hq t Ht); reflexivity). cbn in Hpl. lia.
  Qed.
  Lemma kind_run past s ls : passes step (start, q_start progs) past (s, ls) -> exists cs Hr, ex s ls cs Hr /\ exists H M, lifo cap 0 (st []) H M /\ in_order progs past ls H /\ (quiescent ls -> M = st cs).
  Proof using All.
    assert (HRe : forall past c, passes step (start, q_start progs) past c -> reach step (start, q_start progs) c).
    { induction 1 as [|past0 c c' _ IH Hs]; [apply rtc_refl|]. eapply rtc_r; eassumption. }
    assert (G : forall past s ls, passes step (start, q_start progs) past (s, ls) -> exists cs Hr, ex s ls cs Hr /\ forall c1, c1 ∈ past -> seen c1.2 ls cs Hr).
    { clear past s ls. intros past s ls Rn. remember (s, ls) as c eqn:Ec. revert s ls Ec. induction Rn as [|past c c' Rn IH Hs]; intros s ls Ec.
      - injection Ec as <- <-. exists [], []. split; [|intros c1 Hc; inversion Hc]. split; [exact Hcore0| |constructor|congruence|intros x Hx; inversion Hx|reflexivity].
        cbn [length]. rewrite sumZ_zero; [exact R0|]. intros t Ht. unfold q_start in Ht. apply elem_of_list_fmap in Ht as (pr & -> & _). reflexivity.
      - destruct c as [s0 ls0]. subst c'. destruct (IH s0 ls0 eq_refl) as (cs & Hr & V & HS). destruct (ex_step s0 ls0 cs Hr s ls (Hfacts s0 ls0 (HRe _ _ Rn)) V Hs) as (cs' & Hr' & V' & HS').
        exists cs', Hr'. split; [exact V'|]. intros c1 Hc. apply HS'. apply elem_of_cons in Hc as [-> |Hc]; [exact (seen_now _ _ _ _ V)|exact (HS c1 Hc)]. }
    intros Rn. destruct (G past s ls Rn) as (cs & Hr & V & HS). exists cs, Hr. split; [exact V|]. exact (ex_order s ls cs Hr past (Hfacts s ls (HRe _ _ Rn)) V HS).
  Qed.
End exact.

Section init.
  Context {T C : Type} (cap : nat) (idx slot : nat -> nat) (progs : list (list (qop T))) (start : qshared T C).
  Lemma core_start (W : list T) : (length W <= cap)%nat -> (forall p x, (p < cap)%nat -> lkd (q_data start) p = Some x -> W !! idx p = Some x) -> core cap idx slot progs start (q_start progs) W [] [].
  Proof.
    intros HW Hdata. split.
    - unfold q_start. rewrite fmap_length. reflexivity.
    - exact Hdata.
    - intros j t Hj. unfold q_start in Hj. rewrite list_lookup_fmap in Hj. destruct (progs !! j) as [pr|] eqn:E; [|discriminate]. injection Hj as <-. exists []. cbn. rewrite E.
      split; [reflexivity|]. split; [reflexivity|]. unfold emitted, claim_ok. cbn. destruct pr as [|[]]; split; (reflexivity || exact Logic.I).
    - intros k j _ Hj. discriminate.
    - intros x Hx. inversion Hx.
    - cbn. lia.
  Qed.
End init.

(** ** pushes only *)
Section pushes.
  Context {T C : Type} (ctl : C -> qkind -> nat -> cres C) (cap : nat) (idx slot : nat -> nat).
  Context (Hidx : forall k, (k < cap)%nat -> idx (slot k) = k /\ (slot k < cap)%nat).
  Context (progs : list (list (qop T))) (start : qshared T C).
  Context (Hfacts : forall s ls, reach (qstep ctl) (start, q_start progs) (s, ls) -> sfacts cap s ls).
  Context (l : list T) (Hl : (length l <= cap)%nat) (Hdata : forall p, (p < cap)%nat -> lkd (q_data start) p = l !! idx p).
  Context (k0 : qkind) (R : C -> Z -> nat -> Prop) (R0 : R (q_c start) 0 0%nat).
  Context (HR : forall c d w, R c d w -> 0 <= d /\ Z.of_nat w + d <= Z.of_nat (cap - length l)).
  Context (Hctl : forall c d w n, R c d w -> (n <= 2)%nat -> pendn n <= d ->
    match ctl c k0 n with
    | CGo c' n' => R c' (d + pendn n') w /\ pendn n = 0
    | CReject => Z.of_nat (cap - length l) <= Z.of_nat w + d /\ pendn n = 0
    | COob c' => R c' d w /\ Z.of_nat (cap - length l) <= Z.of_nat w + d /\ pendn n = 0
    | CClaim c' p => R c' (d - pendn n) (S w) /\ p = slot (length l + w)
    end).
  Context (Hop : forall p op, p ∈ progs -> op ∈ p -> exists x, op = QPush k0 x).
  Notation step := (qstep (T:=T) ctl).
  Definition pushed_vals (cs : list (nat * qop T)) : list T := l ++ omap (fun x : nat * qop T => match x.2 with QPush _ v => Some v | QPop _ => None end) cs.
  Lemma pushed_vals_length cs : Forall (fun x => exists v, x.2 = QPush k0 v) cs -> length (pushed_vals cs) = (length l + length cs)%nat.
  Proof using Type.
    unfold pushed_vals. rewrite app_length. intros HF. f_equal. induction HF as [|[j op] cs [v Hv] _ IH]; [reflexivity|]. cbn in Hv. subst op. cbn. f_equal. exact IH.
  Qed.
  Lemma pushed_vals_snoc cs i x : pushed_vals (cs ++ [(i, QPush k0 x)]) = pushed_vals cs ++ [x].
  Proof using Type. unfold pushed_vals. rewrite omap_app. cbn. rewrite app_assoc. reflexivity. Qed.
  Lemma push_run past s ls : passes step (start, q_start progs) past (s, ls) ->
    exists H M, lifo cap 0 l H M /\ in_order progs past ls H /\ (quiescent ls -> (forall p x, (p < cap)%nat -> lkd (q_data s) p = Some x -> M !! idx p = Some x) /\ exists w, length M = (length l + w)%nat /\ R (q_c s) 0 w).
  Proof using All.
    intros Rn.
    destruct (kind_run ctl cap idx slot Hidx progs start Hfacts k0 (cap - length l) (fun w => slot (length l + w)) R HR Hctl (fun op => exists x, op = QPush k0 x)) with
      (Wf := pushed_vals) (Pf := fun _ : list (nat * qop T) => ([] : list nat)) (res := fun (_ : nat) (op : qop T) => match op with QPush _ x => Pushed x | QPop _ => Refused end) (st := pushed_vals) (past := past) (s := s) (ls := ls)
      as (cs & Hr & V & H & M & HL & HO & HM).
    - intros op [x ->]. reflexivity.
    - exact Hop.
    - intros s0 ls0 cs H i t op rest c K HF Hlen Hi Ec Ep [x ->]. pose proof (pushed_vals_length cs HF) as Hln.
      destruct (core_push ctl cap idx slot Hidx progs s0 ls0 _ _ H i t k0 x rest c K Hi Ec Ep) as (H2 & K' & E2); [lia|]. rewrite lookup_nil in E2. subst H2. rewrite Hln in K'. rewrite pushed_vals_snoc. exact K'.
    - intros cs i op HF [x ->] Hlen. cbn. rewrite pushed_vals_snoc, (pushed_vals_length cs HF). split; [reflexivity|]. split; [reflexivity|lia].
    - intros cs op r HF [x ->] Hlen Hrr. destruct Hrr as [-> | ->]; cbn; rewrite (pushed_vals_length cs HF); split; (reflexivity || lia).
    - apply core_start; unfold pushed_vals; cbn; rewrite app_nil_r; [exact Hl|]. intros p x Hp. rewrite Hdata by exact Hp. auto.
    - exact R0.
    - exact Rn.
    - unfold pushed_vals in HL at 1. cbn in HL. rewrite app_nil_r in HL. exists H, M. split; [exact HL|]. split; [exact HO|]. intros Hq. rewrite (HM Hq). split; [exact (k_data _ _ _ _ _ _ _ _ _ (e_core _ _ _ _ _ _ _ _ _ _ _ _ _ _ V))|].
      exists (length cs). split; [apply pushed_vals_length; exact (e_Q _ _ _ _ _ _ _ _ _ _ _ _ _ _ V)|]. pose proof (e_R _ _ _ _ _ _ _ _ _ _ _ _ _ _ V) as X. rewrite sumZ_zero in X by (intros t Ht; unfold pd; rewrite (Hq t Ht); reflexivity). exact X.
  Qed.
End pushes.

(** ** pops only *)
Section popsonly.
  Context {T C : Type} (ctl : C -> qkind -> nat -> cres C) (cap : nat) (idx slot : nat -> nat).
  Context (Hidx : forall k, (k < cap)%nat -> idx (slot k) = k /\ (slot k < cap)%nat).
  Context (progs : list (list (qop T))) (start : qshared T C).
  Context (Hfacts : forall s ls, reach (qstep ctl) (start, q_start progs) (s, ls) -> sfacts cap s ls).
  Context (l : list T) (Hl : (length l <= cap)%nat) (Hdata : forall p, (p < cap)%nat -> lkd (q_data start) p = l !! idx p).
  Context (k0 : qkind) (R : C -> Z -> nat -> Prop) (R0 : R (q_c start) 0 0%nat).
  Context (HR : forall c d w, R c d w -> 0 <= d /\ Z.of_nat w + d <= Z.of_nat (length l)).
  Context (Hctl : forall c d w n, R c d w -> (n <= 2)%nat -> pendn n <= d ->
    match ctl c k0 n with
    | CGo c' n' => R c' (d + pendn n') w /\ pendn n = 0
    | CReject => Z.of_nat (length l) <= Z.of_nat w + d /\ pendn n = 0
    | COob c' => R c' d w /\ Z.of_nat (length l) <= Z.of_nat w + d /\ pendn n = 0
    | CClaim c' p => R c' (d - pendn n) (S w) /\ p = slot (length l - S w)
    end).
  Context (Hop : forall p op, p ∈ progs -> op ∈ p -> op = QPop k0).
  Notation step := (qstep (T:=T) ctl).
  (** slots in the order in which they are claimed *)
  Definition turn (k : nat) : nat := if (k <? length l)%nat then (length l - S k)%nat else k.
  Notation idx' := (fun p => turn (idx p)).
  Notation slot' := (fun k => slot (turn k)).
  Lemma turn_ok k : (k < cap)%nat -> turn (turn k) = k /\ (turn k < cap)%nat.
  Proof using Hl.
    clear -Hl. intros Hk. unfold turn. destruct (Nat.ltb_spec k (length l)) as [H1|H1]; [destruct (Nat.ltb_spec (length l - S k) (length l)); lia|destruct (Nat.ltb_spec k (length l)); lia].
  Qed.
  Lemma Hidx' : forall k, (k < cap)%nat -> idx' (slot' k) = k /\ (slot' k < cap)%nat.
  Proof using Hl Hidx. clear -Hl Hidx. intros k Hk. destruct (turn_ok k Hk) as [T1 T2]. destruct (Hidx _ T2) as [I1 I2]. rewrite I1. auto. Qed.
  Lemma pop_run past s ls : passes step (start, q_start progs) past (s, ls) ->
    exists H M, lifo cap 0 l H M /\ in_order progs past ls H /\ (quiescent ls -> exists w, (w <= length l)%nat /\ M = take (length l - w) l /\ R (q_c s) 0 w /\ forall p x, (p < cap)%nat -> lkd (q_data s) p = Some x -> l !! idx p = Some x).
  Proof using All.
    intros Rn.
    destruct (kind_run ctl cap idx' slot' Hidx' progs start Hfacts k0 (length l) (fun w => slot (length l - S w)) R HR Hctl (fun op => op = QPop k0)) with
      (Wf := fun _ : list (nat * qop T) => reverse l) (Pf := fun cs : list (nat * qop T) => cs.*1) (res := fun (w : nat) (_ : qop T) => match l !! (length l - S w)%nat with Some y => Popped y | None => Refused end)
      (st := fun cs : list (nat * qop T) => take (length l - length cs) l) (past := past) (s := s) (ls := ls)
      as (cs & Hr & V & H & M & HL & HO & HM).
    - intros op ->. reflexivity.
    - exact Hop.
    - intros s0 ls0 cs H i t op rest c K HF Hlen Hi Ec Ep ->.
      assert (Ey : exists y, l !! (length l - S (length cs))%nat = Some y) by (apply lookup_lt_is_Some_2; lia). destruct Ey as [y Ey]. rewrite Ey.
      assert (Ey' : reverse l !! length cs.*1 = Some y) by (rewrite fmap_length, reverse_lookup by exact Hlen; exact Ey).
      assert (HPc : (length cs.*1 < cap)%nat) by (rewrite fmap_length; lia).
      pose proof (core_pop ctl cap idx' slot' Hidx' progs s0 ls0 _ _ H i t k0 rest c K Hi Ec Ep HPc) as K'. rewrite Ey' in K'. cbn beta in K'. rewrite fmap_length in K'.
      assert (Et : turn (length cs) = (length l - S (length cs))%nat) by (unfold turn; destruct (Nat.ltb_spec (length cs) (length l)); lia). rewrite Et in K'. rewrite fmap_app. exact K'.
    - intros cs i op HF -> Hlen. assert (Ey : exists y, l !! (length l - S (length cs))%nat = Some y) by (apply lookup_lt_is_Some_2; lia). destruct Ey as [y Ey]. rewrite Ey. cbn. rewrite app_length. cbn. rewrite Nat.add_1_r.
      replace (length l - length cs)%nat with (S (length l - S (length cs))) by lia. apply take_S_r. exact Ey.
    - intros cs op r HF -> Hlen Hrr. destruct Hrr as [-> | ->]; cbn; rewrite Hlen, Nat.sub_diag; split; (reflexivity || cbn; lia).
    - apply core_start; [rewrite reverse_length; exact Hl|]. intros p x Hp Hd. rewrite Hdata in Hd by exact Hp. pose proof (lookup_lt_Some _ _ _ Hd) as HI. unfold turn. destruct (Nat.ltb_spec (idx p) (length l)); [|lia].
      rewrite reverse_lookup by lia. rewrite <- Hd. f_equal. lia.
    - exact R0.
    - exact Rn.
    - cbn [length] in HL. rewrite Nat.sub_0_r, firstn_all in HL. exists H, M. split; [exact HL|]. split; [exact HO|]. intros Hq. exists (length cs).
      pose proof (e_R _ _ _ _ _ _ _ _ _ _ _ _ _ _ V) as X. rewrite sumZ_zero in X by (intros t Ht; unfold pd; rewrite (Hq t Ht); reflexivity). destruct (HR _ _ _ X) as [_ X1].
      split; [lia|]. split; [exact (HM Hq)|]. split; [exact X|]. intros p x Hp Hd. pose proof (k_data _ _ _ _ _ _ _ _ _ (e_core _ _ _ _ _ _ _ _ _ _ _ _ _ _ V) p x Hp Hd) as Y. cbn beta in Y.
      pose proof (lookup_lt_Some _ _ _ Y) as Y1. rewrite reverse_length in Y1. unfold turn in *. destruct (Nat.ltb_spec (idx p) (length l)); [|lia]. rewrite reverse_lookup in Y by lia. rewrite <- Y. f_equal. lia.
  Qed.
End popsonly.

(** ** vector *)
Section vec.
  Context {T : Type} (cap : nat) (l : list T) (Hl : (length l <= cap)%nat) (progs : list (list (qop T))).
  Notation step := (qstep (T:=T) (vctl cap)).
  Notation start := (vec_conc_start cap l, q_start progs).
  Notation id_ := (fun p : nat => p).
  Implicit Types (s : qshared T Z) (ls : list (qthread T)) (H : list (nat * (qop T * qres T))).

  Lemma clamp_val n : clamp_size (Z.of_nat cap) n = if n <? 0 then 0 else if Z.of_nat cap <? n then Z.of_nat cap else n.
  Proof using Type. reflexivity. Qed.
  Lemma vreach past c : passes step start past c -> reach step start c.
  Proof using Type. induction 1 as [|past0 c0 c' _ IH Hs]; [apply rtc_refl|]. eapply rtc_r; eassumption. Qed.
  Lemma vfacts : (forall p op, p ∈ progs -> op ∈ p -> vector_call op) -> forall s ls, reach step start (s, ls) -> sfacts cap s ls.
  Proof using Hl. intros Hwf s ls R. exact (inv_facts _ _ _ _ _ _ (reach_inv cap l Hl progs Hwf s ls R)). Qed.

  (** at rest: which slots hold an element *)
  Lemma vrest : (forall p op, p ∈ progs -> op ∈ p -> vector_call op) -> forall s ls (M : list T), reach step start (s, ls) -> quiescent ls -> (length M <= cap)%nat ->
    Z.of_nat (length M) <= q_c s \/ M = [] -> (q_c s <= Z.of_nat (length M) \/ length M = cap) -> (forall p x, (p < length M)%nat -> lkd (q_data s) p = Some x -> M !! p = Some x) ->
    q_data s = (Some <$> M) ++ replicate (cap - length M) None.
  Proof using Hl.
    intros Hwf s ls M R Hq HM H1 H2 H3. pose proof (reach_inv cap l Hl progs Hwf s ls R) as I. destruct (i_len _ _ _ _ _ _ I) as (L1 & _ & _).
    destruct (at_rest cap vm (fun _ => True) _ _ _ I Hq) as [Hr _]. apply list_eq. intros p. destruct (decide (p < cap)%nat) as [Hp|Hp].
    2: { rewrite !lookup_ge_None_2; [reflexivity|rewrite app_length, fmap_length, replicate_length; lia|lia]. }
    destruct (Hr p Hp) as (_ & R2 & R3). rewrite lkd_Some by lia. rewrite R2 in R3. unfold vm in R3.
    destruct (decide (p < length M)%nat) as [HpM|HpM].
    - rewrite lookup_app_l by (rewrite fmap_length; exact HpM). rewrite list_lookup_fmap. destruct (lkd (q_data s) p) as [x|] eqn:Ed; [rewrite (H3 p x HpM Ed); reflexivity|].
      cbn in R3. destruct (Z.ltb_spec (Z.of_nat p) (q_c s)); [lia|]. destruct H1 as [H1| ->]; [lia|cbn in HpM; lia].
    - rewrite lookup_app_r by (rewrite fmap_length; lia). rewrite fmap_length, lookup_replicate_2 by lia. destruct (lkd (q_data s) p); [|reflexivity]. cbn in R3. destruct (Z.ltb_spec (Z.of_nat p) (q_c s)); lia.
  Qed.

  Definition vpushR (c : Z) (d : Z) (w : nat) : Prop := d = 0 /\ (w <= cap - length l)%nat /\ exists e : nat, c = Z.of_nat (length l + w + e) /\ (e = 0%nat \/ w = (cap - length l)%nat).
  Lemma vpush_run past s ls : (forall p op, p ∈ progs -> op ∈ p -> exists x, op = QPush KPushBack x) -> passes step start past (s, ls) ->
    exists H M, lifo cap 0 l H M /\ in_order progs past ls H /\ (quiescent ls -> q_data s = (Some <$> M) ++ replicate (cap - length M) None).
  Proof using Hl.
    intros Hop Rn. assert (Hwf : forall p op, p ∈ progs -> op ∈ p -> vector_call op) by (intros p op Hp Ho; destruct (Hop p op Hp Ho) as [x ->]; exact Logic.I).
    destruct (push_run (vctl cap) cap id_ id_ ltac:(auto) progs (vec_conc_start cap l) (vfacts Hwf) l Hl (fun p Hp => proj1 (start_lookup cap l Hl p Hp)) KPushBack vpushR) with (past := past) (s := s) (ls := ls) as (H & M & HL & HO & HQ).
    - split; [reflexivity|]. split; [lia|]. exists 0%nat. cbn. lia.
    - intros c d w (-> & Hw & _). lia.
    - intros c d w n (-> & Hw & e & -> & He) Hn Hd. unfold pendn in *. destruct n as [|[|[|]]]; cbn in Hd; try lia.
      + cbn. rewrite clamp_val. destruct (Z.ltb_spec (Z.of_nat (length l + w + e)) 0); [lia|]. destruct (Z.ltb_spec (Z.of_nat cap) (Z.of_nat (length l + w + e))) as [Hc|Hc].
        * rewrite Z.eqb_refl. lia.
        * destruct (Z.eqb_spec (Z.of_nat (length l + w + e)) (Z.of_nat cap)); [lia|]. split; [|reflexivity]. split; [reflexivity|]. split; [exact Hw|]. exists e. auto.
      + cbn. destruct ((0 <=? Z.of_nat (length l + w + e)) && (Z.of_nat (length l + w + e) <? Z.of_nat cap)) eqn:E.
        * assert (e = 0%nat) by lia. subst e. split; [|lia]. split; [reflexivity|]. split; [lia|]. exists 0%nat. lia.
        * split; [|lia]. split; [reflexivity|]. split; [exact Hw|]. exists (S e). lia.
    - exact Hop.
    - exact Rn.
    - exists H, M. split; [exact HL|]. split; [exact HO|]. intros Hq. destruct (HQ Hq) as (HD & w & EM & _ & HW & e & Hc & He).
      apply (vrest Hwf s ls M (vreach _ _ Rn) Hq); [lia|lia|lia|]. intros p x Hp Hd. apply HD; [lia|exact Hd].
  Qed.

  Definition vpopR (c : Z) (d : Z) (w : nat) : Prop := d = 0 /\ (w <= length l)%nat /\ exists e : nat, c = Z.of_nat (length l) - Z.of_nat w - Z.of_nat e /\ (e = 0%nat \/ w = length l).
  Lemma vpop_run past s ls : (forall p op, p ∈ progs -> op ∈ p -> op = QPop KPopBack) -> passes step start past (s, ls) ->
    exists H M, lifo cap 0 l H M /\ in_order progs past ls H /\ (quiescent ls -> q_data s = (Some <$> M) ++ replicate (cap - length M) None).
  Proof using Hl.
    intros Hop Rn. assert (Hwf : forall p op, p ∈ progs -> op ∈ p -> vector_call op) by (intros p op Hp Ho; rewrite (Hop p op Hp Ho); exact Logic.I).
    destruct (pop_run (vctl cap) cap id_ id_ ltac:(auto) progs (vec_conc_start cap l) (vfacts Hwf) l Hl (fun p Hp => proj1 (start_lookup cap l Hl p Hp)) KPopBack vpopR) with (past := past) (s := s) (ls := ls) as (H & M & HL & HO & HQ).
    - split; [reflexivity|]. split; [lia|]. exists 0%nat. cbn. lia.
    - intros c d w (-> & Hw & _). lia.
    - intros c d w n (-> & Hw & e & -> & He) Hn Hd. unfold pendn in *. destruct n as [|[|[|]]]; cbn in Hd; try lia.
      + cbn. set (z := Z.of_nat (length l) - Z.of_nat w - Z.of_nat e). rewrite clamp_val. destruct (Z.ltb_spec z 0); [rewrite Z.eqb_refl; lia|]. destruct (Z.ltb_spec (Z.of_nat cap) z); [lia|].
        destruct (Z.eqb_spec z 0); [lia|]. split; [|reflexivity]. split; [reflexivity|]. split; [exact Hw|]. exists e. auto.
      + cbn. set (z := Z.of_nat (length l) - Z.of_nat w - Z.of_nat e - 1). destruct ((0 <=? z) && (z <? Z.of_nat cap)) eqn:E.
        * assert (e = 0%nat) by lia. subst e. split; [|lia]. split; [reflexivity|]. split; [lia|]. exists 0%nat. lia.
        * split; [|lia]. split; [reflexivity|]. split; [exact Hw|]. exists (S e). lia.
    - exact Hop.
    - exact Rn.
    - exists H, M. split; [exact HL|]. split; [exact HO|]. intros Hq. destruct (HQ Hq) as (w & Hw & -> & (_ & HW & e & Hc & He) & HD).
      apply (vrest Hwf s ls _ (vreach _ _ Rn) Hq); rewrite ?take_length; [lia| |lia|].
      + destruct He as [-> |He]; [left; lia|right]. rewrite He, Nat.sub_diag. reflexivity.
      + intros p x Hp Hd. rewrite lookup_take by lia. apply HD; [lia|exact Hd].
  Qed.
End vec.

(** ** stack: the deque used at its end *)
Section stack.
  Context {T : Type} (cap b : nat) (l : list T) (Hb : (b < cap)%nat) (Hcap : Z.of_nat cap <= INT_MAX) (Hl : (length l <= cap)%nat) (progs : list (list (qop T))).
  Notation step := (qstep (T:=T) (dctl cap)).
  Notation start := (deq_conc_start cap b l, q_start progs).
  Notation idx := (ring_dist cap b).
  Notation slot := (ring_pos cap b).
  Implicit Types (s : qshared T dcnt) (ls : list (qthread T)) (H : list (nat * (qop T * qres T))).

  Lemma dreach past c : passes step start past c -> reach step start c.
  Proof using Type. induction 1 as [|past0 c0 c' _ IH Hs]; [apply rtc_refl|]. eapply rtc_r; eassumption. Qed.
  Lemma dfacts : (forall p op, p ∈ progs -> op ∈ p -> op_wf op) -> forall s ls, reach step start (s, ls) -> sfacts cap s ls.
  Proof using Hb Hcap Hl.
    intros Hwf s ls R. destruct (dreach_inv cap b l Hb Hcap Hl progs Hwf s ls R) as (sg & -> & _ & I). pose proof (inv_facts _ _ _ _ _ _ I) as [F1 F2 F3 F4]. split; assumption.
  Qed.
  Lemma Hring : forall k, (k < cap)%nat -> idx (slot k) = k /\ (slot k < cap)%nat.
  Proof using Hb. clear -Hb. intros k Hk. split; [apply dist_pos; assumption|apply ring_pos_lt; lia]. Qed.
  Lemma slot_of k : (k < cap)%nat -> Z.to_nat (Z.of_nat ((b + k) mod cap)) = slot k.
  Proof using Hb.
    clear -Hb. intros Hk. rewrite Nat2Z.id. unfold ring_pos. destruct (Nat.ltb_spec (b + k) cap) as [H|H]; [apply Nat.mod_small; exact H|].
    replace (b + k)%nat with (b + k - cap + 1 * cap)%nat by lia. rewrite Nat.mod_add by lia. rewrite Nat.mod_small by lia. lia.
  Qed.
  Lemma inc_ring k : inc_mod (Z.of_nat cap) (Z.of_nat ((b + k) mod cap)) = Z.of_nat ((b + S k) mod cap).
  Proof using Hb Hcap. clear -Hb Hcap. rewrite !Nat2Z.inj_mod. rewrite inc_mod_mod by lia. f_equal. lia. Qed.
  Lemma dec_ring k : dec_reconstruct (Z.of_nat cap) (Z.of_nat ((b + S k) mod cap)) = Z.of_nat ((b + k) mod cap).
  Proof using Hb.
    clear -Hb. unfold dec_reconstruct. replace (b + S k)%nat with (S (b + k)) by lia. set (a := (b + k)%nat). destruct (decide (a mod cap = cap - 1)%nat) as [E|E].
    - assert (E2 : (S a mod cap = 0)%nat). { rewrite <- Nat.add_1_r, Nat.add_mod by lia. rewrite E. destruct (decide (cap = 1)%nat) as [-> |]; [reflexivity|]. rewrite (Nat.mod_small 1) by lia. replace (cap - 1 + 1)%nat with cap by lia. apply Nat.mod_same. lia. }
      rewrite E2, E. change (Z.of_nat 0 =? 0) with true. cbv iota. lia.
    - assert (E2 : (S a mod cap = S (a mod cap))%nat). { pose proof (Nat.mod_upper_bound a cap ltac:(lia)). rewrite <- (Nat.add_1_r a), Nat.add_mod by lia. rewrite (Nat.mod_small 1) by lia. rewrite Nat.mod_small by lia. lia. }
      rewrite E2. destruct (Z.eqb_spec (Z.of_nat (S (a mod cap))) 0); lia.
  Qed.
  Lemma decm_ring k : dec_mod (Z.of_nat cap) (Z.of_nat ((b + S k) mod cap)) = Z.of_nat ((b + k) mod cap).
  Proof using Hb Hcap. clear -Hb Hcap. rewrite dec_mod_val; [apply dec_ring; exact Hb| |exact Hcap]. pose proof (Nat.mod_upper_bound (b + S k) cap ltac:(lia)). lia. Qed.

  Lemma drest : (forall p op, p ∈ progs -> op ∈ p -> op_wf op) -> forall s ls (M : list T), reach step start (s, ls) -> quiescent ls -> no_oob ls -> (length M <= cap)%nat -> c_begin (q_c s) = Z.of_nat b ->
    Z.of_nat (length M) <= c_n (q_c s) \/ M = [] -> (c_n (q_c s) <= Z.of_nat (length M) \/ length M = cap) -> (forall p x, (p < cap)%nat -> (idx p < length M)%nat -> lkd (q_data s) p = Some x -> M !! idx p = Some x) ->
    q_data s = q_data (deq_conc_start cap b M).
  Proof using Hb Hcap Hl.
    intros Hwf s ls M R Hq Hno HM HB H1 H2 H3. destruct (deq_quiescent cap b l Hb Hcap Hl progs Hwf s ls R Hq Hno) as (_ & _ & HS & _). destruct (f_len _ _ _ (dfacts Hwf s ls R)) as (L1 & L2 & L3).
    assert (Ebg : Z.to_nat (d_begin (as_deq s)) = b) by (cbn [as_deq d_begin]; rewrite HB; lia). rewrite Ebg in HS.
    assert (Hsz : d_size (as_deq s) = Z.of_nat (length M)).
    { unfold d_size, v_size, v_capacity. cbn [as_deq d_v v_occ VectorModel.v_n]. rewrite L2, clamp_val. destruct (Z.ltb_spec (c_n (q_c s)) 0); [destruct H1 as [H1| ->]; cbn; lia|]. destruct (Z.ltb_spec (Z.of_nat cap) (c_n (q_c s))); [lia|]. destruct H1 as [H1| ->]; cbn in *; lia. }
    rewrite Hsz in HS. apply list_eq. intros p. destruct (decide (p < cap)%nat) as [Hp|Hp].
    2: { rewrite !lookup_ge_None_2; [reflexivity|cbn; rewrite fmap_length, seq_length; lia|lia]. }
    destruct (HS p Hp) as (_ & _ & x & Hx & Hiff). destruct (dstart_lookup cap b M p Hp) as [D1 _]. rewrite Hx. rewrite (lkd_Some (q_data (deq_conc_start cap b M)) p) by (cbn; rewrite fmap_length, seq_length; lia).
    rewrite D1. f_equal. destruct x as [x|].
    - assert (Z.of_nat (idx p) < Z.of_nat (length M)) by (apply Hiff; discriminate). symmetry. apply (H3 p x Hp); [lia|]. unfold lkd. rewrite Hx. reflexivity.
    - symmetry. apply lookup_ge_None_2. destruct (decide (length M <= idx p)%nat); [assumption|]. exfalso. apply Hiff; [lia|reflexivity].
  Qed.

  Definition dpushR (c : dcnt) (d : Z) (w : nat) : Prop := 0 <= d /\ Z.of_nat w + d <= Z.of_nat (cap - length l) /\ c_begin c = Z.of_nat b /\ c_end c = Z.of_nat ((b + (length l + w)) mod cap) /\
    exists e : nat, c_n c = Z.of_nat (length l + w + e) + d /\ (e = 0%nat \/ Z.of_nat w + d = Z.of_nat (cap - length l)).
  Lemma dpush_run past s ls : (forall p op, p ∈ progs -> op ∈ p -> exists x, op = QPush KPushBack x) -> passes step start past (s, ls) ->
    exists H M, lifo cap 0 l H M /\ in_order progs past ls H /\ (quiescent ls -> no_oob ls -> q_data s = q_data (deq_conc_start cap b M)).
  Proof using Hb Hcap Hl.
    intros Hop Rn. assert (Hwf : forall p op, p ∈ progs -> op ∈ p -> op_wf op) by (intros p op Hp Ho; destruct (Hop p op Hp Ho) as [x ->]; reflexivity).
    destruct (push_run (dctl cap) cap idx slot Hring progs (deq_conc_start cap b l) (dfacts Hwf) l Hl (fun p Hp => proj1 (dstart_lookup cap b l p Hp)) KPushBack dpushR) with (past := past) (s := s) (ls := ls) as (H & M & HL & HO & HQ).
    - split; [lia|]. split; [lia|]. split; [reflexivity|]. split; [cbn; rewrite Nat.add_0_r; reflexivity|]. exists 0%nat. cbn. lia.
    - intros c d w (H1 & H2 & _). auto.
    - intros c d w n (Hd0 & Hw & HB & HE & e & Hc & He) Hn Hd. unfold pendn in *. destruct n as [|[|[|]]]; cbn in Hd; try lia.
      + cbn. rewrite clamp_val. destruct (Z.ltb_spec (c_n c) 0); [lia|]. destruct (Z.ltb_spec (Z.of_nat cap) (c_n c)) as [Hc'|Hc'].
        * rewrite Z.eqb_refl. lia.
        * destruct (Z.eqb_spec (c_n c) (Z.of_nat cap)); [lia|]. rewrite Z.add_0_r. split; [|reflexivity]. repeat (split; [assumption|]). exists e. auto.
      + cbn. destruct (Z.ltb_spec (c_n c) (Z.of_nat cap)) as [Hlt|Hlt].
        * assert (e = 0%nat) by lia. subst e. split; [|reflexivity]. unfold dpushR. cbn -[Nat.modulo]. split; [lia|]. split; [lia|]. split; [assumption|]. split; [assumption|]. exists 0%nat. lia.
        * split; [|lia]. unfold dpushR. cbn -[Nat.modulo]. split; [lia|]. split; [lia|]. split; [assumption|]. split; [assumption|]. exists (S e). lia.
      + cbn -[inc_mod dec_mod dec_reconstruct Nat.modulo]. assert (Hwl : (length l + w < cap)%nat) by lia. split; [|rewrite HE; apply slot_of; exact Hwl]. unfold dpushR. cbn -[inc_mod dec_mod dec_reconstruct Nat.modulo]. split; [lia|]. split; [lia|]. split; [assumption|].
        split; [rewrite HE, inc_ring; do 2 f_equal; lia|]. exists e. lia.
    - exact Hop.
    - exact Rn.
    - exists H, M. split; [exact HL|]. split; [exact HO|]. intros Hq Hno. destruct (HQ Hq) as (HD & w & EM & _ & HW & HB & HE & e & Hc & He).
      apply (drest Hwf s ls M (dreach _ _ Rn) Hq Hno); [lia|exact HB|lia|lia|]. intros p x Hp _ Hd. apply HD; assumption.
  Qed.

  Definition dpopR (c : dcnt) (d : Z) (w : nat) : Prop := 0 <= d /\ Z.of_nat w + d <= Z.of_nat (length l) /\ c_begin c = Z.of_nat b /\ c_end c = Z.of_nat ((b + (length l - w)) mod cap) /\
    exists e : nat, c_n c = Z.of_nat (length l) - Z.of_nat w - Z.of_nat e - d /\ (e = 0%nat \/ Z.of_nat w + d = Z.of_nat (length l)).
  Lemma dpop_run past s ls : (forall p op, p ∈ progs -> op ∈ p -> op = QPop KPopBack) -> passes step start past (s, ls) ->
    exists H M, lifo cap 0 l H M /\ in_order progs past ls H /\ (quiescent ls -> no_oob ls -> q_data s = q_data (deq_conc_start cap b M)).
  Proof using Hb Hcap Hl.
    intros Hop Rn. assert (Hwf : forall p op, p ∈ progs -> op ∈ p -> op_wf op) by (intros p op Hp Ho; rewrite (Hop p op Hp Ho); reflexivity).
    destruct (pop_run (dctl cap) cap idx slot Hring progs (deq_conc_start cap b l) (dfacts Hwf) l Hl (fun p Hp => proj1 (dstart_lookup cap b l p Hp)) KPopBack dpopR) with (past := past) (s := s) (ls := ls) as (H & M & HL & HO & HQ).
    - split; [lia|]. split; [lia|]. split; [reflexivity|]. split; [cbn; rewrite Nat.sub_0_r; reflexivity|]. exists 0%nat. cbn. lia.
    - intros c d w (H1 & H2 & _). auto.
    - intros c d w n (Hd0 & Hw & HB & HE & e & Hc & He) Hn Hd. unfold pendn in *. destruct n as [|[|[|]]]; cbn in Hd; try lia.
      + cbn. rewrite clamp_val. destruct (Z.ltb_spec (c_n c) 0); [rewrite Z.eqb_refl; lia|]. destruct (Z.ltb_spec (Z.of_nat cap) (c_n c)) as [Hc'|Hc']; [lia|].
        destruct (Z.eqb_spec (c_n c) 0); [lia|]. rewrite Z.add_0_r. split; [|reflexivity]. repeat (split; [assumption|]). exists e. auto.
      + cbn. destruct (Z.ltb_spec 0 (c_n c)) as [Hlt|Hlt].
        * assert (e = 0%nat) by lia. subst e. split; [|reflexivity]. unfold dpopR. cbn -[Nat.modulo]. split; [lia|]. split; [lia|]. split; [assumption|]. split; [assumption|]. exists 0%nat. lia.
        * split; [|lia]. unfold dpopR. cbn -[Nat.modulo]. split; [lia|]. split; [lia|]. split; [assumption|]. split; [assumption|]. exists (S e). lia.
      + cbn -[inc_mod dec_mod dec_reconstruct Nat.modulo]. assert (Hwl : (w < length l)%nat) by lia. replace (length l - w)%nat with (S (length l - S w)) in HE by lia.
        split; [|rewrite HE, dec_ring; apply slot_of; lia]. unfold dpopR. cbn -[inc_mod dec_mod dec_reconstruct Nat.modulo]. split; [lia|]. split; [lia|]. split; [assumption|]. split; [rewrite HE, decm_ring; reflexivity|]. exists e. lia.
    - exact Hop.
    - exact Rn.
    - exists H, M. split; [exact HL|]. split; [exact HO|]. intros Hq Hno. destruct (HQ Hq) as (w & Hw & -> & (_ & HW & HB & HE & e & Hc & He) & HD).
      apply (drest Hwf s ls _ (dreach _ _ Rn) Hq Hno); rewrite ?take_length; [lia|exact HB| |lia|].
      + destruct He as [-> |He]; [left; lia|right]. replace (length l - w)%nat with 0%nat by lia. reflexivity.
      + intros p x Hp Hi Hd. rewrite lookup_take by lia. apply HD; assumption.
  Qed.
End stack.
