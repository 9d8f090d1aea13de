(** The counters during a kernel. *)
From Verif Require Import Base Conc SlotModel SlotSpec SlotProofs VectorModel VectorSpec VectorProofs VectorConcProofs VDebtSpec VDebtProofs VHistSpec VHistProofs.
From Verif Require Import DequeModel DequeSpec DequeProofs DequeConcProofs CounterProofs RejectProofs DDebtSpec DDebtProofs DHistSpec DHistProofs SizeSpec.

Lemma sumZ_le_in {A} (f g : A -> Z) (l : list A) : (forall x, x ∈ l -> f x <= g x) -> sumZ f l <= sumZ g l.
Proof. induction l as [|x l IH]; intros H; [reflexivity|]. cbn. specialize (IH (fun y Hy => H y (elem_of_list_further _ _ _ Hy))). pose proof (H x ltac:(left)). lia. Qed.
Lemma sumZ_add {A} (f g : A -> Z) (l : list A) : sumZ (fun x => f x + g x) l = sumZ f l + sumZ g l.
Proof. induction l as [|x l IH]; [reflexivity|]. cbn. lia. Qed.
Lemma sumZ_neg {A} (f : A -> Z) (l : list A) : sumZ (fun x => - f x) l = - sumZ f l.
Proof. induction l as [|x l IH]; [reflexivity|]. cbn. lia. Qed.
Lemma len_bind {A B} (f : A -> list B) (l : list A) : Z.of_nat (length (l ≫= f)) = sumZ (fun x => Z.of_nat (length (f x))) l.
Proof. induction l as [|x l IH]; [reflexivity|]. rewrite bind_cons, app_length. cbn [sumZ]. lia. Qed.

Section count.
  Context {T C : Type} (ctl : C -> qkind -> nat -> cres C) (cz : C -> Z) (cnt : nat -> Z).
  Hypothesis Hcnt : cnt 0%nat = 0.
  Hypothesis Hcnt1 : forall n, 0 <= cnt n <= 1.
  Hypothesis Hctl : forall c k n, match ctl c k n with
    | CGo c' n' => cz c' = cz c + (cnt n' - cnt n) * sg k
    | CReject => cnt n = 0
    | COob c' | CClaim c' _ => cz c' = cz c + (1 - cnt n) * sg k
    end.
  Context (progs : list (list (qop T))) (c0 : Z).
  Hypothesis Hk : forall p op, p ∈ progs -> op ∈ p -> is_push (kind_of op) = match op with QPush _ _ => true | QPop _ => false end.
  Notation runs push := (fun t : qthread T => match q_pc t, q_prog t with QIdle, _ => 0 | _, op :: _ => if Bool.eqb (is_push (kind_of op)) push then 1 else 0 | _, [] => 0 end).
  Lemma cur_bounds (t : qthread T) : okpc t -> - runs false t <= cur cnt t <= runs true t.
  Proof using Hcnt1.
    clear Hk Hctl. unfold okpc, cur. destruct (q_prog t) as [|op r]; [destruct (q_pc t); lia|]. unfold sg. intros H. destruct (q_pc t) as [|n|p|p|p|p|p|p|p y|p [x|]]; try (destruct (is_push (kind_of op)); cbn; lia); try lia.
  Qed.
  Lemma count_bounds (s0 s : qshared T C) ls : cz (q_c s0) = c0 -> reach (qstep ctl) (s0, q_start progs) (s, ls) ->
    c0 + settled progs ls - running false ls <= cz (q_c s) <= c0 + settled progs ls + running true ls.
  Proof using Hcnt Hcnt1 Hctl Hk.
    intros H0 R. destruct (jinv_reach ctl cz cnt Hcnt Hctl progs c0 Hk s0 s ls H0 R) as (L & P & W). cbn [fst snd] in *. rewrite W. unfold settled, rejected, running.
    assert (Hg : forall (ps : list (list (qop T))) (ts : list (qthread T)), length ts = length ps ->
      (forall i t p, ts !! i = Some t -> ps !! i = Some p -> (length (q_log t) <= length p)%nat) ->
      sumZ (netw cnt) (zip ps ts) = Z.of_nat (length (ts ≫= fun t => pushed_by (q_log t))) - Z.of_nat (length (ts ≫= fun t => popped_by (q_log t))) +
        sumZ (fun x : list (qop T) * qthread T => sumZ (fun c : qop T * qres T => if Bool.eqb (is_push (kind_of c.1)) true && is_oob c.2 then 1 else 0) (zip x.1 (q_log x.2))) (zip ps ts) -
        sumZ (fun x : list (qop T) * qthread T => sumZ (fun c : qop T * qres T => if Bool.eqb (is_push (kind_of c.1)) false && is_oob c.2 then 1 else 0) (zip x.1 (q_log x.2))) (zip ps ts) + sumZ (cur cnt) ts).
    { clear. induction ps as [|p ps IH]; intros [|t ts] L H; try discriminate; [reflexivity|]. cbn [zip_with sumZ mbind list_bind]. cbn [length] in L.
      rewrite !app_length. rewrite (IH ts ltac:(lia) (fun i t' p' => H (S i) t' p')). pose proof (H 0%nat t p eq_refl eq_refl) as Hl. cbn [fst snd].
      assert (E : netw cnt (p, t) = Z.of_nat (length (pushed_by (q_log t))) - Z.of_nat (length (popped_by (q_log t))) +
        sumZ (fun c : qop T * qres T => if Bool.eqb (is_push (kind_of c.1)) true && is_oob c.2 then 1 else 0) (zip p (q_log t)) -
        sumZ (fun c : qop T * qres T => if Bool.eqb (is_push (kind_of c.1)) false && is_oob c.2 then 1 else 0) (zip p (q_log t)) + cur cnt t).
      { unfold netw. cbn [fst snd]. generalize (cur cnt t). clear H IH L.
        revert p Hl. generalize (q_log t). clear. induction l as [|r l IH]; intros [|op p] Hl z; cbn [length] in Hl; try lia; [reflexivity|reflexivity|].
        specialize (IH p ltac:(lia) z). cbn [zip_with sumZ fst snd]. unfold weight at 1, sg. cbn [fst snd]. destruct r as [x|y| |]; cbn [is_oob]; rewrite ?andb_false_r, ?andb_true_r.
        - change (pushed_by (Pushed x :: l)) with (x :: pushed_by l). change (popped_by (Pushed x :: l)) with (popped_by l). cbn [length]. lia.
        - change (pushed_by (Popped y :: l)) with (pushed_by l). change (popped_by (Popped y :: l)) with (y :: popped_by l). cbn [length]. lia.
        - change (pushed_by (Refused :: l)) with (pushed_by l). change (popped_by (Refused :: l)) with (popped_by l). lia.
        - change (pushed_by (OutOfBounds :: l)) with (pushed_by l). change (popped_by (OutOfBounds :: l)) with (popped_by l). destruct (is_push (kind_of op)); cbn [Bool.eqb]; lia. }
      rewrite E. unfold mbind. lia. }
    rewrite (Hg progs ls L).
    - assert (B : forall t, t ∈ ls -> - runs false t <= cur cnt t <= runs true t).
      { intros t Ht. apply elem_of_list_lookup in Ht as [i Hi]. apply cur_bounds. exact (proj1 (P i t Hi)). }
      pose proof (sumZ_le_in (cur cnt) (runs true) ls (fun t Ht => proj2 (B t Ht))) as B1. pose proof (sumZ_le_in (fun t => - runs false t) (cur cnt) ls (fun t Ht => proj1 (B t Ht))) as B2. rewrite sumZ_neg in B2.
      lia.
    - intros i t p Hi Hp. destruct (P i t Hi) as (_ & done & Hd & Hl). rewrite Hp in Hd. injection Hd as ->. rewrite app_length. lia.
  Qed.
End count.

Definition size_is (cap : nat) (c size : Z) (empty full : bool) : Prop :=
  size = Z.max 0 (Z.min (Z.of_nat cap) c) /\ (empty = true <-> c <= 0) /\ (full = true <-> Z.of_nat cap <= c).
Lemma v_size_is {T} (cap : nat) (v : vec T) : 0 < Z.of_nat cap -> length (v_occ v) = cap -> size_is cap (v_n v) (v_size v) (v_empty v) (v_full v).
Proof.
  intros Hc Hl. assert (E : v_size v = Z.max 0 (Z.min (Z.of_nat cap) (v_n v))).
  { unfold v_size, v_capacity, clamp_size. rewrite Hl. destruct (Z.ltb_spec (v_n v) 0); [lia|]. destruct (Z.ltb_spec (Z.of_nat cap) (v_n v)); lia. }
  split; [exact E|]. unfold v_empty, v_full. rewrite E. unfold v_capacity. rewrite Hl, !Z.eqb_eq. lia.
Qed.

Section top.
  Context {T : Type} `{EqDecision T} (opt : bool) (ord : nat -> list nat) (Hord : forall n, ord n ≡ₚ seq 0 n) (cap : nat) (Hcap : 0 < Z.of_nat cap <= INT_MAX).
  Lemma vector_size_now (v0 : vec T) ps v : vec_create (T:=T) (Z.of_nat cap) = Ret v0 -> history_run opt ord cap v0 ps v -> (forall p, p ∈ ps -> phase_fits cap p) ->
    exists l k, history_spec cap [] 0 ps l k /\ forall progs : list (list (qop T)), (forall p op, p ∈ progs -> op ∈ p -> vector_call op) ->
    forall s ls, reach (qstep (vctl cap)) (as_shared v, q_start progs) (s, ls) ->
    exists c, Z.of_nat (length l) + k + settled progs ls - running false ls <= c <= Z.of_nat (length l) + k + settled progs ls + running true ls /\
      size_is cap c (v_size (as_vec s)) (v_empty (as_vec s)) (v_full (as_vec s)).
  Proof.
    intros E R Hf. destruct (history_ok opt ord Hord cap Hcap ps v0 [] 0 v (created opt ord Hord cap Hcap v0 E) R Hf) as (l & k & S & D). exists l, k. split; [exact S|]. intros progs Hwf s ls Rk.
    assert (Hk : forall p op, p ∈ progs -> op ∈ p -> is_push (kind_of op) = match op with QPush _ _ => true | QPop _ => false end).
    { intros p op H1 H2. specialize (Hwf p op H1 H2). destruct op as [[] x|[]]; cbn in *; try contradiction; reflexivity. }
    assert (Ev : v_n v = Z.of_nat (length l) + k). { destruct D as ((w & Rw & (_ & _ & _ & ->)) & _). rewrite (r_n _ _ _ _ Rw). reflexivity. }
    pose proof (count_bounds (vctl cap) (fun c => c) (fun _ => 0) eq_refl ltac:(lia) (vctl_reject cap) progs (v_n v) Hk (as_shared v) s ls eq_refl Rk) as B. rewrite Ev in B. exists (q_c s). split; [exact B|].
    destruct (i_len _ _ _ _ _ _ (shared_reach opt ord Hord cap v l k D progs Hwf s ls Rk)) as (_ & L2 & _). exact (v_size_is cap (as_vec s) ltac:(lia) L2).
  Qed.
  Lemma deque_size_now junk (d0 : deq T) ps d : deq_create junk (Z.of_nat cap) = Ret d0 -> dhistory_run opt ord cap d0 ps d -> (forall p, p ∈ ps -> dphase_fits opt p) ->
    exists l k, dhistory_spec opt cap [] 0 ps l k /\ forall progs : list (list (qop T)), (forall p op, p ∈ progs -> op ∈ p -> op_wf op) ->
    forall s ls, reach (qstep (dctl cap)) (d_as_shared d, q_start progs) (s, ls) ->
    exists c, Z.of_nat (length l) + k + settled progs ls - running false ls <= c <= Z.of_nat (length l) + k + settled progs ls + running true ls /\
      size_is cap c (d_size (as_deq s)) (d_empty (as_deq s)) (d_full (as_deq s)).
  Proof.
    intros E R Hf. destruct (dhistory_ok opt ord Hord cap Hcap ps d0 [] 0 d (dcreated opt ord Hord cap Hcap junk d0 E) R Hf) as (l & k & S & D). exists l, k. split; [exact S|]. intros progs Hwf s ls Rk.
    assert (Hk : forall p op, p ∈ progs -> op ∈ p -> is_push (kind_of op) = match op with QPush _ _ => true | QPop _ => false end).
    { intros p op H1 H2. specialize (Hwf p op H1 H2). destruct op; exact Hwf. }
    destruct (orep_start opt ord Hord cap d l k D) as (b & Hb & Es). rewrite Es in Rk. pose proof (orep_le opt cap d l k D) as Hle.
    pose proof (count_bounds (dctl cap) c_n dcnt2 eq_refl ltac:(intros [|[|n]]; cbn; lia) (dctl_reject cap) progs (Z.of_nat (length l) + k) Hk (off_start cap b l k) s ls eq_refl Rk) as B. exists (c_n (q_c s)). split; [exact B|].
    destruct (off_reach cap b l k Hb Hcap Hle progs Hwf s ls Rk) as (sg & -> & _ & I). destruct (i_len _ _ _ _ _ _ I) as (_ & L2 & _). exact (v_size_is cap (d_v (as_deq (er_s g_c sg))) ltac:(lia) L2).
  Qed.
End top.
