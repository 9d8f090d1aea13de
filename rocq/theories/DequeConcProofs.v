(** Concurrent deque: instance of the slot protocol, with begin and end counted without wrap-around as ghosts. *)
From Verif Require Import Base Conc AtomicModel SlotModel SlotSpec SlotProofs Lifetime VectorModel VectorSpec VectorProofs DequeModel DequeSpec DequeProofs.

Local Arguments pushed_by : simpl never.
Local Arguments popped_by : simpl never.

(** ** erasing ghosts *)
Section erase.
  Context {T C G : Type} (ctl : C -> qkind -> nat -> cres C) (gctl : G -> qkind -> nat -> cres G) (er : G -> C).
  Definition er_res (r : cres G) : cres C :=
    match r with CGo g n => CGo (er g) n | CReject => CReject | COob g => COob (er g) | CClaim g p => CClaim (er g) p end.
  Hypothesis Her : forall g k n, ctl (er g) k n = er_res (gctl g k n).
  Definition er_s (s : qshared T G) : qshared T C := {| q_c := er (q_c s); q_data := q_data s; q_occ := q_occ s; q_locks := q_locks s |}.

  Lemma er_step i s t : qstep ctl i (er_s s) t = option_map (fun x => (er_s x.1, x.2)) (qstep gctl i s t).
  Proof.
    unfold qstep. destruct (q_prog t) as [|op rest]; [reflexivity|].
    destruct (q_pc t) as [|n|p|p|p|p|p|p|p y|p [r|]]; try reflexivity.
    - cbn [er_s q_c]. rewrite Her. destruct (gctl (q_c s) (kind_of op) n); reflexivity.
    - cbn [er_s q_locks]. destruct (q_locks s !! p) as [[]|]; reflexivity.
    - cbn [er_s q_occ]. destruct (q_occ s !! p) as [[]|]; destruct op; reflexivity.
    - destruct op; reflexivity.
    - destruct op; reflexivity.
    - cbn [er_s q_data]. destruct (q_data s !! p) as [[y|]|]; reflexivity.
  Qed.

  Lemma er_reach s ls s' ls' : reach (qstep gctl) (s, ls) (s', ls') -> reach (qstep ctl) (er_s s, ls) (er_s s', ls').
  Proof.
    intros R. remember (s, ls) as c eqn:E1. remember (s', ls') as c' eqn:E2. revert s ls E1 s' ls' E2.
    induction R as [c|c c1 c2 Hs R IH]; intros s ls E1 s' ls' E2.
    - subst. injection E2 as <- <-. apply rtc_refl.
    - subst. inversion Hs as [s0 ls0 i t s1 t1 Hi Hst]; subst. eapply rtc_l; [|eapply IH; reflexivity].
      eapply CStep; [exact Hi|]. rewrite er_step, Hst. reflexivity.
  Qed.
  Lemma un_reach s ls s' ls' : reach (qstep ctl) (er_s s, ls) (s', ls') -> exists sg, s' = er_s sg /\ reach (qstep gctl) (s, ls) (sg, ls').
  Proof.
    intros R. remember (er_s s, ls) as c eqn:E1. remember (s', ls') as c' eqn:E2. revert s ls E1 s' ls' E2.
    induction R as [c|c c1 c2 Hs R IH]; intros s ls E1 s' ls' E2.
    - subst. injection E2 as <- <-. exists s. split; [reflexivity|apply rtc_refl].
    - subst. inversion Hs as [s0 ls0 i t s1 t1 Hi Hst]; subst. rewrite er_step in Hst.
      destruct (qstep gctl i s t) as [[sg tg]|] eqn:E; [|discriminate]. cbn in Hst. injection Hst as <- <-.
      destruct (IH sg _ eq_refl s' ls' eq_refl) as (sg' & -> & R'). exists sg'. split; [reflexivity|].
      eapply rtc_l; [|exact R']. econstructor; eassumption.
  Qed.
End erase.

(** ** ghost counters: begin and end without wrap-around *)
Record gcnt := { g_c : dcnt; g_B : Z; g_E : Z }.
Definition gctl (cap : nat) (g : gcnt) (k : qkind) (n : nat) : cres gcnt :=
  match dctl cap (g_c g) k n with
  | CGo c n' => CGo {| g_c := c; g_B := g_B g; g_E := g_E g |} n'
  | CReject => CReject
  | COob c => COob {| g_c := c; g_B := g_B g; g_E := g_E g |}
  | CClaim c p => CClaim
      {| g_c := c; g_B := g_B g + (match k with KPushFront => -1 | KPopFront => 1 | _ => 0 end);
         g_E := g_E g + (match k with KPushBack => 1 | KPopBack => -1 | _ => 0 end) |} p
  end.
Lemma gctl_er cap g k n : dctl cap (g_c g) k n = er_res g_c (gctl cap g k n).
Proof. unfold gctl. destruct (dctl cap (g_c g) k n); reflexivity. Qed.

Definition gok (cap : nat) (g : gcnt) : Prop := c_begin (g_c g) = g_B g mod Z.of_nat cap /\ c_end (g_c g) = g_E g mod Z.of_nat cap.
(** number of integers below [a] that are congruent to s, up to a constant *)
Definition upto (cap : nat) (a : Z) (s : nat) : Z := (a - 1 - Z.of_nat s) / Z.of_nat cap.
Definition gm (cap : nat) (g : gcnt) (s : nat) : Z := upto cap (g_E g) s - upto cap (g_B g) s.

Lemma upto_succ cap a s : (s < cap)%nat -> upto cap (a + 1) s = upto cap a s + at_ s (Z.to_nat (a mod Z.of_nat cap)).
Proof.
  intros Hs. unfold upto, at_. set (c := Z.of_nat cap). assert (Hc : 0 < c) by (unfold c; lia).
  pose proof (Z.mod_pos_bound a c Hc). pose proof (Z.div_mod a c ltac:(lia)) as Ha.
  destruct (decide (s = Z.to_nat (a mod c))) as [E|Hne].
  - replace (a + 1 - 1 - Z.of_nat s) with (a / c * c + 0) by lia. replace (a - 1 - Z.of_nat s) with ((a / c - 1) * c + (c - 1)) by lia.
    rewrite !Z.div_add_l by lia. rewrite (Z.div_small 0), (Z.div_small (c - 1)) by lia. lia.
  - destruct (Z_lt_le_dec (Z.of_nat s) (a mod c)) as [Hlt|Hge].
    + replace (a + 1 - 1 - Z.of_nat s) with (a / c * c + (a mod c - Z.of_nat s)) by lia.
      replace (a - 1 - Z.of_nat s) with (a / c * c + (a mod c - Z.of_nat s - 1)) by lia.
      rewrite !Z.div_add_l by lia. rewrite !(Z.div_small (_ - _)) by lia. lia.
    + replace (a + 1 - 1 - Z.of_nat s) with ((a / c - 1) * c + (c + a mod c - Z.of_nat s)) by lia.
      replace (a - 1 - Z.of_nat s) with ((a / c - 1) * c + (c + a mod c - Z.of_nat s - 1)) by lia.
      rewrite !Z.div_add_l by lia. rewrite !(Z.div_small (_ - _)) by lia. lia.
Qed.

Lemma inc_mod_mod cap a : (0 < cap)%nat -> Z.of_nat cap <= INT_MAX -> inc_mod (Z.of_nat cap) (a mod Z.of_nat cap) = (a + 1) mod Z.of_nat cap.
Proof.
  intros H0 H1. set (c := Z.of_nat cap) in *. assert (Hc : 0 < c) by (unfold c; lia). pose proof (Z.mod_pos_bound a c Hc). pose proof (Z.div_mod a c ltac:(lia)) as Ha.
  rewrite inc_mod_val by lia. destruct (Z.eqb_spec (a mod c + 1) c) as [E|E].
  - apply Z.mod_unique_pos with (q := a / c + 1); lia.
  - apply Z.mod_unique_pos with (q := a / c); lia.
Qed.
Lemma reconstruct_mod cap a : (0 < cap)%nat -> dec_reconstruct (Z.of_nat cap) (a mod Z.of_nat cap) = (a - 1) mod Z.of_nat cap.
Proof.
  intros H0. set (c := Z.of_nat cap) in *. assert (Hc : 0 < c) by (unfold c; lia). pose proof (Z.mod_pos_bound a c Hc). pose proof (Z.div_mod a c ltac:(lia)) as Ha.
  unfold dec_reconstruct. destruct (Z.eqb_spec (a mod c) 0) as [E|E].
  - apply Z.mod_unique_pos with (q := a / c - 1); lia.
  - apply Z.mod_unique_pos with (q := a / c); lia.
Qed.
Lemma dec_mod_mod cap a : (0 < cap)%nat -> Z.of_nat cap <= INT_MAX -> dec_mod (Z.of_nat cap) (a mod Z.of_nat cap) = (a - 1) mod Z.of_nat cap.
Proof.
  intros H0 H1. pose proof (Z.mod_pos_bound a (Z.of_nat cap) ltac:(lia)). rewrite dec_mod_val by lia. apply reconstruct_mod. exact H0.
Qed.

Lemma gctl_ok cap (Hc0 : (0 < cap)%nat) (Hc1 : Z.of_nat cap <= INT_MAX) : forall g k n, gok cap g -> (n <= 2)%nat ->
  match gctl cap g k n with
  | CGo g' n' => gok cap g' /\ (n < n' <= 2)%nat /\ forall s, (s < cap)%nat -> gm cap g' s = gm cap g s
  | CReject => True
  | COob g' => gok cap g' /\ forall s, (s < cap)%nat -> gm cap g' s = gm cap g s
  | CClaim g' p => gok cap g' /\ (p < cap)%nat /\ forall s, (s < cap)%nat -> gm cap g' s = gm cap g s + (if is_push k then at_ s p else - at_ s p)
  end.
Proof.
  intros g k n [H1 H2] Hn. unfold gctl, dctl. destruct n as [|[|n]].
  - destruct (_ =? _); [exact I|]. split; [split; assumption|]. split; [lia|]. reflexivity.
  - destruct (is_push k).
    + destruct (_ <? _); (split; [split; assumption|]); [split; [lia|]|]; reflexivity.
    + destruct (_ <? _); (split; [split; assumption|]); [split; [lia|]|]; reflexivity.
  - pose proof (Z.mod_pos_bound (g_E g) (Z.of_nat cap) ltac:(lia)). pose proof (Z.mod_pos_bound (g_B g) (Z.of_nat cap) ltac:(lia)).
    pose proof (Z.mod_pos_bound (g_E g - 1) (Z.of_nat cap) ltac:(lia)). pose proof (Z.mod_pos_bound (g_B g - 1) (Z.of_nat cap) ltac:(lia)).
    destruct k; unfold gok, gm; cbn [g_c g_B g_E c_begin c_end is_push]; rewrite ?H1, ?H2, ?reconstruct_mod by lia; rewrite ?Z.add_0_r.
    + split; [split; [reflexivity|apply inc_mod_mod; lia]|]. split; [lia|]. intros s Hs. rewrite upto_succ by exact Hs. lia.
    + split; [split; [reflexivity|apply dec_mod_mod; lia]|]. split; [lia|]. intros s Hs. pose proof (upto_succ cap (g_E g - 1) s Hs) as E.
      replace (g_E g - 1 + 1) with (g_E g) in E by lia. change (g_E g + -1) with (g_E g - 1). lia.
    + split; [split; [apply dec_mod_mod; lia|reflexivity]|]. split; [lia|]. intros s Hs. pose proof (upto_succ cap (g_B g - 1) s Hs) as E.
      replace (g_B g - 1 + 1) with (g_B g) in E by lia. change (g_B g + -1) with (g_B g - 1). lia.
    + split; [split; [apply inc_mod_mod; lia|reflexivity]|]. split; [lia|]. intros s Hs. rewrite (upto_succ cap (g_B g)) by exact Hs. lia.
Qed.

(** between 0 and cap elements: every slot at most once; exactly the slots from begin on *)
Lemma gm_ring cap g s : (s < cap)%nat -> gok cap g -> 0 <= g_E g - g_B g <= Z.of_nat cap ->
  gm cap g s = if Z.of_nat (ring_dist cap (Z.to_nat (c_begin (g_c g))) s) <? g_E g - g_B g then 1 else 0.
Proof.
  intros Hs [H1 _] Hn. unfold gm, upto. set (c := Z.of_nat cap) in *. set (B := g_B g) in *. assert (Hc : 0 < c) by lia.
  pose proof (Z.mod_pos_bound B c Hc) as Hb. pose proof (Z.div_mod B c ltac:(lia)) as HB. rewrite H1. unfold ring_dist.
  set (z := g_E g - B) in *. replace (g_E g) with (B + z) by (unfold z; lia).
  destruct (Nat.ltb_spec s (Z.to_nat (B mod c))) as [Hlt|Hge].
  - assert (E0 : (B - 1 - Z.of_nat s) / c = B / c). { symmetry. apply Z.div_unique_pos with (r := B mod c - 1 - Z.of_nat s); lia. }
    rewrite E0. destruct (Z.ltb_spec (Z.of_nat (s + cap - Z.to_nat (B mod c))) z) as [Hz|Hz].
    + assert ((B + z - 1 - Z.of_nat s) / c = B / c + 1); [|lia]. symmetry. apply Z.div_unique_pos with (r := B mod c + z - 1 - Z.of_nat s - c); lia.
    + assert ((B + z - 1 - Z.of_nat s) / c = B / c); [|lia]. symmetry. apply Z.div_unique_pos with (r := B mod c + z - 1 - Z.of_nat s); lia.
  - assert (E0 : (B - 1 - Z.of_nat s) / c = B / c - 1). { symmetry. apply Z.div_unique_pos with (r := B mod c - 1 - Z.of_nat s + c); lia. }
    rewrite E0. destruct (Z.ltb_spec (Z.of_nat (s - Z.to_nat (B mod c))) z) as [Hz|Hz].
    + assert ((B + z - 1 - Z.of_nat s) / c = B / c); [|lia]. symmetry. apply Z.div_unique_pos with (r := B mod c + z - 1 - Z.of_nat s); lia.
    + assert ((B + z - 1 - Z.of_nat s) / c = B / c - 1); [|lia]. symmetry. apply Z.div_unique_pos with (r := B mod c + z - 1 - Z.of_nat s + c); lia.
Qed.
Lemma gm_range cap g s : (s < cap)%nat -> gok cap g -> 0 <= g_E g - g_B g <= Z.of_nat cap -> 0 <= gm cap g s <= 1.
Proof. intros. rewrite gm_ring by assumption. destruct (_ <? _); lia. Qed.

Section dconc.
  Context {T : Type} (cap b : nat) (l : list T) (Hb : (b < cap)%nat) (Hcap : Z.of_nat cap <= INT_MAX) (Hl : (length l <= cap)%nat).
  Context (progs : list (list (qop T))) (Hwf : forall p op, p ∈ progs -> op ∈ p -> op_wf op).

  Notation start := (deq_conc_start cap b l, q_start progs).
  Definition gstart : qshared T gcnt :=
    {| q_c := {| g_c := q_c (deq_conc_start cap b l); g_B := Z.of_nat b; g_E := Z.of_nat b + Z.of_nat (length l) |};
       q_data := q_data (deq_conc_start cap b l); q_occ := q_occ (deq_conc_start cap b l); q_locks := q_locks (deq_conc_start cap b l) |}.
  Notation dinv := (inv (T:=T) (C:=gcnt) cap (gm cap) (gok cap)).
  Notation w0 := (fun w => sumZ (wd w) (q_data gstart)).
  Notation er := (er_s (T:=T) g_c).
  Notation gstep := (qstep (T:=T) (gctl cap)).
  Lemma cap_pos : (0 < cap)%nat.
  Proof. clear -Hb. lia. Qed.
  Notation Hctl := (gctl_ok cap cap_pos Hcap).

  Lemma dstart_lookup p : (p < cap)%nat ->
    lkd (q_data (deq_conc_start cap b l)) p = l !! ring_dist cap b p /\ lk (q_occ (deq_conc_start cap b l)) p = bool_decide (ring_dist cap b p < length l)%nat.
  Proof.
    intros Hp. unfold lkd, lk, deq_conc_start. cbn [q_data q_occ]. rewrite !list_lookup_fmap, lookup_seq_lt by exact Hp. cbn. split; [|reflexivity].
    destruct (l !! _); reflexivity.
  Qed.
  Lemma gstart_gok : gok cap (q_c gstart).
  Proof.
    unfold gok, gstart, deq_conc_start. cbn [q_c g_c g_B g_E c_begin c_end]. split.
    - rewrite Z.mod_small by lia. reflexivity.
    - rewrite Nat2Z.inj_mod. f_equal. lia.
  Qed.
  Lemma dstart_inv : dinv w0 gstart (q_start progs).
  Proof.
    apply inv_init; auto.
    - cbn. rewrite fmap_length, seq_length. reflexivity.
    - cbn. rewrite fmap_length, seq_length. reflexivity.
    - exact gstart_gok.
    - intros p Hp. change (q_occ gstart) with (q_occ (deq_conc_start cap b l)). destruct (dstart_lookup p Hp) as [_ ->].
      rewrite gm_ring by (exact Hp || exact gstart_gok || cbn; lia). cbn [gstart q_c g_c g_B g_E deq_conc_start c_begin]. rewrite Nat2Z.id.
      destruct (bool_decide_reflect (ring_dist cap b p < length l)%nat), (Z.ltb_spec (Z.of_nat (ring_dist cap b p)) (Z.of_nat b + Z.of_nat (length l) - Z.of_nat b)); cbn; lia.
    - intros p Hp. change (q_occ gstart) with (q_occ (deq_conc_start cap b l)). change (q_data gstart) with (q_data (deq_conc_start cap b l)).
      destruct (dstart_lookup p Hp) as [-> ->]. destruct (decide (ring_dist cap b p < length l)%nat) as [H|H].
      + destruct (lookup_lt_is_Some_2 l _ H) as [x ->]. rewrite bool_decide_eq_true_2 by exact H. reflexivity.
      + rewrite lookup_ge_None_2 by lia. rewrite bool_decide_eq_false_2 by exact H. reflexivity.
  Qed.

  Lemma dreach_inv s ls : reach (qstep (dctl cap)) start (s, ls) -> exists sg, s = er sg /\ reach gstep (gstart, q_start progs) (sg, ls) /\ dinv w0 sg ls.
  Proof.
    intros R. destruct (un_reach (dctl cap) (gctl cap) g_c (gctl_er cap) gstart (q_start progs) s ls R) as (sg & -> & Rg).
    exists sg. split; [reflexivity|]. split; [exact Rg|]. eapply (inv_reach (gctl cap) cap (gm cap) (gok cap) Hctl); [exact dstart_inv|exact Rg].
  Qed.

  Lemma dstored_start : stored (q_data (deq_conc_start cap b l)) ≡ₚ l.
  Proof.
    unfold stored, deq_conc_start. cbn [q_data].
    assert (E1 : forall ps : list nat, omap id ((fun p => l !! ring_dist cap b p) <$> ps) = omap (fun p => l !! ring_dist cap b p) ps).
    { induction ps as [|p ps IH]; [reflexivity|]. cbn in *. unfold id in *. rewrite IH. reflexivity. }
    rewrite E1.
    assert (E2 : forall ps : list nat, omap (fun p => l !! ring_dist cap b p) ps = omap (fun p => l !! ring_dist cap b p) (filter (fun p => (ring_dist cap b p < length l)%nat) ps)).
    { induction ps as [|p ps IH]; [reflexivity|]. rewrite filter_cons. destruct (decide (ring_dist cap b p < length l)%nat) as [H|H]; cbn; rewrite IH.
      - reflexivity.
      - rewrite lookup_ge_None_2 by lia. reflexivity. }
    rewrite E2, (positions cap b Hb (length l) Hl).
    assert (E3 : omap (fun p => l !! ring_dist cap b p) (ring_pos cap b <$> seq 0 (length l)) = l); [|rewrite E3; reflexivity].
    assert (E4 : forall n k, (n + k <= length l)%nat -> omap (fun p => l !! ring_dist cap b p) (ring_pos cap b <$> seq n k) = take k (drop n l)).
    { intros n k. revert n. induction k as [|k IH]; intros n Hn; [reflexivity|]. cbn. rewrite dist_pos by lia.
      destruct (lookup_lt_is_Some_2 l n ltac:(lia)) as [x Hx]. rewrite Hx. specialize (IH (S n) ltac:(lia)). cbn in IH. rewrite IH.
      rewrite (drop_S _ _ _ Hx). reflexivity. }
    rewrite E4 by lia. rewrite drop_0. apply take_ge. lia.
  Qed.

  Lemma deq_conservation `{EqDecision T} s ls : reach (qstep (dctl cap)) start (s, ls) -> l ++ all_pushed ls ≡ₚ all_popped ls ++ stored (q_data s).
  Proof.
    intros R. destruct (dreach_inv _ _ R) as (sg & -> & _ & I). rewrite <- dstored_start. change (q_data (deq_conc_start cap b l)) with (q_data gstart). change (q_data (er sg)) with (q_data sg). apply sumZ_perm. intros w. rewrite !sumZ_app.
    rewrite !sumZ_stored. unfold all_pushed, all_popped. rewrite !sumZ_bind. exact (i_cons _ _ _ _ _ _ I w).
  Qed.

  Lemma deq_access s ls : reach (qstep (dctl cap)) start (s, ls) ->
    (forall i t, ls !! i = Some t -> q_prog t <> [] -> qstep (dctl cap) i s t <> None) /\
    (forall i j ti tj p, ls !! i = Some ti -> ls !! j = Some tj -> element_access ti = Some p -> element_access tj = Some p -> i = j) /\
    (forall i t p, ls !! i = Some t -> element_access t = Some p -> (p < cap)%nat /\
       exists d, q_data s !! p = Some d /\ (q_pc t = QConstruct p -> d = None) /\ (q_pc t <> QConstruct p -> d <> None)).
  Proof.
    intros R. destruct (dreach_inv _ _ R) as (sg & -> & _ & I). split; [|split].
    - intros i t Hi Hne. rewrite (er_step (dctl cap) (gctl cap) g_c (gctl_er cap)).
      destruct (not_stuck (gctl cap) cap (gm cap) (gok cap) _ _ _ _ _ I Hi Hne) as (s' & t' & ->). discriminate.
    - intros i j ti tj p. apply (no_race cap (gm cap) (gok cap) _ _ _ _ _ _ _ _ I).
    - intros i t p Hi Ha.
      assert (Hp : (p < cap)%nat) by (eapply access_bound; [eapply (i_tok _ _ _ _ _ _ I), elem_of_list_lookup_2; exact Hi|exact Ha]).
      split; [exact Hp|]. exists (lkd (q_data sg) p). destruct (i_len _ _ _ _ _ _ I) as (L1 & _ & _). cbn [er_s q_data]. rewrite lkd_Some by lia. split; [reflexivity|].
      unfold element_access in Ha. assert (Hne : q_prog t <> []) by (destruct (q_prog t); discriminate || congruence).
      pose proof (lifetime_at cap (gm cap) (gok cap) _ _ _ _ _ I Hi Hne) as HL.
      destruct (q_prog t); [discriminate|]. destruct (q_pc t); try discriminate; injection Ha as ->.
      + auto.
      + destruct HL as [y ->]. split; [discriminate|discriminate].
      + rewrite HL. split; [discriminate|discriminate].
  Qed.

  (** ** size counter against begin and end *)
  Definition pend (t : qthread T) : Z := match q_pc t with QCtl 2 => if pushing t then 1 else -1 | _ => 0 end.
  Definition gap (g : gcnt) : Z := c_n (g_c g) - (g_E g - g_B g).

  Lemma ctl_counts (s : qshared T gcnt) (op : qop T) n : op_wf op -> (n <= 2)%nat -> 0 <= c_n (g_c (q_c s)) <= Z.of_nat cap ->
    let w := if is_push (kind_of op) then 1 else -1 in
    match gctl cap (q_c s) (kind_of op) n with
    | CGo g n' => (n = 0%nat /\ n' = 1%nat /\ gap g = gap (q_c s) /\ g = q_c s \/
                   n = 1%nat /\ n' = 2%nat /\ gap g = gap (q_c s) + w) /\ 0 <= c_n (g_c g) <= Z.of_nat cap
    | CReject | COob _ => True
    | CClaim g p => n = 2%nat /\ gap g = gap (q_c s) - w /\ 0 <= c_n (g_c g) <= Z.of_nat cap
    end.
  Proof.
    intros Hop Hn Hr. unfold gctl, dctl, gap. destruct n as [|[|n]]; cbn zeta.
    - destruct (_ =? _); [exact I|]. cbn [g_c g_B g_E]. split; [left; destruct (q_c s); auto|exact Hr].
    - destruct (is_push (kind_of op)).
      + destruct (Z.ltb_spec (c_n (g_c (q_c s))) (Z.of_nat cap)); [|exact I]. cbn [g_c g_B g_E c_n]. split; [right; split; [reflexivity|]; split; [reflexivity|lia]|lia].
      + destruct (Z.ltb_spec 0 (c_n (g_c (q_c s)))); [|exact I]. cbn [g_c g_B g_E c_n]. split; [right; split; [reflexivity|]; split; [reflexivity|lia]|lia].
    - assert (n = 0)%nat as -> by lia. destruct op as [[] x|[]]; cbn in Hop; try discriminate; cbn [kind_of is_push g_c g_B g_E c_n]; (split; [reflexivity|]); (split; [lia|exact Hr]).
  Qed.

  Lemma pend_step (s : qshared T gcnt) i t s' t' : tok cap t -> 0 <= c_n (g_c (q_c s)) <= Z.of_nat cap -> gstep i s t = Some (s', t') ->
    OutOfBounds ∉ q_log t' -> OutOfBounds ∉ q_log t /\ gap (q_c s') - gap (q_c s) = pend t' - pend t /\ 0 <= c_n (g_c (q_c s')) <= Z.of_nat cap.
  Proof.
    intros [Hop Hpc] Hr E Hno. unfold qstep in E. destruct (q_prog t) as [|op rest] eqn:Epr; [discriminate|].
    assert (Hnl : OutOfBounds ∉ q_log t).
    { intros H. apply Hno. assert (Hlog : q_log t' = q_log t \/ exists r, q_log t' = q_log t ++ [r]).
      { repeat match type of E with context [match ?x with _ => _ end] => destruct x end; try discriminate; injection E as <- <-; cbn; eauto. }
      destruct Hlog as [-> | [r ->]]; [exact H|]. apply elem_of_app. left. exact H. }
    split; [exact Hnl|]. unfold pend.
    destruct (q_pc t) as [|n|p|p|p|p|p|p|p y|p r] eqn:Epc.
    - injection E as <- <-. cbn. split; [lia|exact Hr].
    - pose proof (ctl_counts s op n (Hop op ltac:(left)) ltac:(lia) Hr) as Hk. cbn zeta in Hk. 
      assert (Hpu : is_push (kind_of op) = pushing t).
      { unfold pushing. rewrite Epr. pose proof (Hop op ltac:(left)) as Ho. destruct op; exact Ho. }
      destruct (gctl cap (q_c s) (kind_of op) n) as [c' n'| |c'|c' p] eqn:Ec; injection E as <- <-.
      + cbn [goto q_pc with_c q_c]. change (pushing (goto t (QCtl n'))) with (pushing t). rewrite Hpu in Hk.
        destruct Hk as [[(-> & -> & Hg & _)|(-> & -> & Hg)] Hk]; (split; [|exact Hk]); [lia|]. destruct (pushing t); lia.
      + cbn [finish q_pc]. split; [|exact Hr]. destruct n as [|[|n]]; [lia|lia|]. unfold gctl, dctl in Ec. destruct op as [[] x|[]]; discriminate.
      + exfalso. apply Hno. cbn. apply elem_of_app. right. left.
      + cbn [goto q_pc with_c q_c]. rewrite Hpu in Hk. destruct Hk as (-> & Hg & Hk). split; [|exact Hk]. destruct (pushing t); lia.
    - destruct (q_locks s !! p) as [[]|]; try discriminate; injection E as <- <-; cbn; rewrite ?Epc; split; try exact Hr; lia.
    - destruct (q_occ s !! p) as [[]|]; try discriminate; destruct op; injection E as <- <-; cbn; split; try exact Hr; lia.
    - destruct op; [|discriminate]. injection E as <- <-. cbn. split; [lia|exact Hr].
    - destruct op; [|discriminate]. injection E as <- <-. cbn. split; [lia|exact Hr].
    - injection E as <- <-. cbn. split; [lia|exact Hr].
    - destruct (q_data s !! p) as [[y|]|]; try discriminate. injection E as <- <-. cbn. split; [lia|exact Hr].
    - injection E as <- <-. cbn. split; [lia|exact Hr].
    - destruct r as [r|]; injection E as <- <-; cbn; (split; [lia|exact Hr]).
  Qed.

  (** invariant of states without late rejections *)
  Record calm (s : qshared T gcnt) (ls : list (qthread T)) : Prop := {
    k_inv : dinv w0 s ls;
    k_gap : gap (q_c s) = sumZ pend ls;
    k_n : 0 <= c_n (g_c (q_c s)) <= Z.of_nat cap
  }.
  Lemma calm_step s ls i t s' t' : calm s ls -> ls !! i = Some t -> gstep i s t = Some (s', t') -> OutOfBounds ∉ q_log t' -> calm s' (<[i := t']> ls).
  Proof.
    intros K Hi E Hno. assert (Ht : t ∈ ls) by (eapply elem_of_list_lookup_2; exact Hi).
    destruct (pend_step _ _ _ _ _ (i_tok _ _ _ _ _ _ (k_inv _ _ K) t Ht) (k_n _ _ K) E Hno) as (_ & H1 & H2). split.
    - exact (step_inv (gctl cap) cap (gm cap) (gok cap) Hctl _ _ _ _ _ _ _ (k_inv _ _ K) Hi E).
    - rewrite (sumZ_insert _ _ _ _ _ Hi). pose proof (k_gap _ _ K). lia.
    - exact H2.
  Qed.
  Lemma calm_reach s ls : reach gstep (gstart, q_start progs) (s, ls) -> no_oob ls -> calm s ls.
  Proof.
    intros R.
    refine (proj2 (invariant gstep (fun c => dinv w0 c.1 c.2 /\ (no_oob c.2 -> calm c.1 c.2)) _ (gstart, q_start progs) (s, ls) _ R)).
    - intros c c' (I & HK) Hs. destruct Hs as [s1 ls1 i t s2 t2 Hi Hst]. cbn [fst snd] in *.
      assert (Hlt : (i < length ls1)%nat) by (eapply lookup_lt_Some; exact Hi).
      split; [exact (step_inv (gctl cap) cap (gm cap) (gok cap) Hctl _ _ _ _ _ _ _ I Hi Hst)|].
      intros Hno. assert (Hno2 : OutOfBounds ∉ q_log t2) by (apply Hno; eapply elem_of_list_lookup_2, list_lookup_insert; exact Hlt).
      assert (Hno1 : OutOfBounds ∉ q_log t).
      { intros H. apply Hno2. assert (Hlog : q_log t2 = q_log t \/ exists r, q_log t2 = q_log t ++ [r]).
        { clear -Hst. unfold qstep in Hst. repeat match type of Hst with context [match ?x with _ => _ end] => destruct x end; try discriminate; injection Hst as <- <-; cbn; eauto. }
        destruct Hlog as [-> | [r ->]]; [exact H|]. apply elem_of_app. left. exact H. }
      eapply calm_step; [|exact Hi|exact Hst|exact Hno2]. apply HK. intros t0 Ht0. apply elem_of_list_lookup in Ht0 as [j Hj].
      destruct (decide (i = j)) as [->|Hij]; [rewrite Hi in Hj; injection Hj as <-; exact Hno1|].
      apply Hno. eapply elem_of_list_lookup_2. rewrite list_lookup_insert_ne by exact Hij. exact Hj.
    - cbn. split; [exact dstart_inv|]. intros _. split; [exact dstart_inv| |cbn; lia].
      rewrite sumZ_zero; [unfold gap, gstart; cbn [q_c g_c g_B g_E deq_conc_start c_n]; lia|]. intros t Ht. apply elem_of_list_fmap in Ht as (p & -> & Hp). reflexivity.
  Qed.

  (** ** completing calls *)
  Lemma step_reach s ls i t s' t' : ls !! i = Some t -> gstep i s t = Some (s', t') -> reach gstep (s, ls) (s', <[i := t']> ls).
  Proof. intros Hi E. eapply rtc_l; [econstructor; eassumption|apply rtc_refl]. Qed.

  Definition ready (t : qthread T) : Prop := match q_pc t with QIdle | QCtl 0 | QCtl 1 => True | _ => False end.
  Global Instance ready_dec t : Decision (ready t).
  Proof. unfold ready. destruct (q_pc t) as [|[|[|]]| | | | | | | |]; apply _. Defined.
  Definition at2 (t : qthread T) : bool := match q_pc t with QCtl 2 => true | _ => false end.
  Definition n2 (ls : list (qthread T)) : Z := sumZ (fun t => if at2 t then 1 else 0) ls.

  Lemma no_log (t : qthread T) pc : OutOfBounds ∉ q_log t -> OutOfBounds ∉ q_log (goto t pc).
  Proof. auto. Qed.
  Lemma insert_no_oob (ls : list (qthread T)) i t' : no_oob ls -> OutOfBounds ∉ q_log t' -> no_oob (<[i := t']> ls).
  Proof.
    intros H H' t Ht. apply elem_of_list_lookup in Ht as [j Hj]. destruct (decide (i = j)) as [->|Hij].
    - destruct (decide (j < length ls)%nat).
      + rewrite list_lookup_insert in Hj by assumption. injection Hj as <-. exact H'.
      + rewrite list_insert_ge in Hj by lia. apply H. eapply elem_of_list_lookup_2; exact Hj.
    - rewrite list_lookup_insert_ne in Hj by exact Hij. apply H. eapply elem_of_list_lookup_2; exact Hj.
  Qed.

  Lemma step2 s ls i t : calm s ls -> ls !! i = Some t -> q_pc t = QCtl 2 -> OutOfBounds ∉ q_log t ->
    exists s' p, gstep i s t = Some (s', goto t (QTry p)) /\ calm s' (<[i := goto t (QTry p)]> ls) /\ c_n (g_c (q_c s')) = c_n (g_c (q_c s)).
  Proof.
    intros K Hi Hpc Hno. pose proof (i_tok _ _ _ _ _ _ (k_inv _ _ K) t (elem_of_list_lookup_2 _ _ _ Hi)) as [Hop Hp]. rewrite Hpc in Hp.
    assert (exists s' p, gstep i s t = Some (s', goto t (QTry p)) /\ c_n (g_c (q_c s')) = c_n (g_c (q_c s))) as (s' & p & E & Hn).
    { unfold qstep. destruct (q_prog t) as [|op rest] eqn:Epr; [destruct Hp; congruence|]. rewrite Hpc. unfold gctl, dctl.
      destruct op as [[] x|[]]; eexists _, _; (split; [reflexivity|]); reflexivity. }
    exists s', p. split; [exact E|]. split; [|exact Hn]. eapply calm_step; eauto.
  Qed.

  Lemma settle n : forall s ls, n2 ls <= Z.of_nat n -> calm s ls -> no_oob ls ->
    exists s' ls', reach gstep (s, ls) (s', ls') /\ calm s' ls' /\ no_oob ls' /\ length ls' = length ls /\ c_n (g_c (q_c s')) = c_n (g_c (q_c s)) /\
      (forall t, t ∈ ls' -> at2 t = false) /\
      (forall i t, ls !! i = Some t -> exists t', ls' !! i = Some t' /\ (at2 t = false /\ t' = t \/ at2 t = true /\ exists p, t' = goto t (QTry p))).
  Proof.
    induction n as [|n IH]; intros s ls Hn K Hno.
    - assert (H0 : forall t, t ∈ ls -> at2 t = false).
      { intros t Ht. apply elem_of_list_lookup in Ht as [i Hi].
        pose proof (sumZ_ge_elem (fun t => if at2 t then 1 else 0) ls i t ltac:(intros u _; cbn beta; destruct (at2 u); lia) Hi) as H. cbn beta in H. unfold n2 in Hn. destruct (at2 t); [lia|reflexivity]. }
      exists s, ls. split; [apply rtc_refl|]. split; [exact K|]. split; [exact Hno|]. split; [reflexivity|]. split; [reflexivity|]. split; [exact H0|].
      intros i t Hi. exists t. split; [exact Hi|]. left. split; [|reflexivity]. apply H0. eapply elem_of_list_lookup_2; exact Hi.
    - destruct (decide (n2 ls <= Z.of_nat n)) as [Hle|Hgt]; [apply IH; assumption|].
      destruct (sumZ_pos_witness (fun t => if at2 t then 1 else 0) ls) as (i & t & Hi & Ht); [intros u _; cbn beta; destruct (at2 u); lia|unfold n2 in Hgt; lia|].
      assert (Hat : at2 t = true) by (destruct (at2 t); [reflexivity|lia]).
      assert (Hpc : q_pc t = QCtl 2). { unfold at2 in Hat. destruct (q_pc t) as [|[|[|[|]]]| | | | | | | |]; try discriminate. reflexivity. }
      destruct (step2 s ls i t K Hi Hpc (Hno t (elem_of_list_lookup_2 _ _ _ Hi))) as (s1 & p & E & K1 & Hn1).
      assert (Hlt : (i < length ls)%nat) by (eapply lookup_lt_Some; exact Hi).
      destruct (IH s1 (<[i := goto t (QTry p)]> ls)) as (s2 & ls2 & R2 & K2 & Hno2 & Hl2 & Hn2 & H2 & Hpt).
      { unfold n2. rewrite (sumZ_insert _ _ _ _ _ Hi). rewrite Hat. change (at2 (goto t (QTry p))) with false. unfold n2 in Hn. lia. }
      { exact K1. } { apply insert_no_oob; [exact Hno|]. exact (Hno t (elem_of_list_lookup_2 _ _ _ Hi)). }
      rewrite insert_length in Hl2. exists s2, ls2. split; [etrans; [eapply step_reach; eassumption|exact R2]|]. split; [exact K2|]. split; [exact Hno2|]. split; [exact Hl2|]. split; [lia|]. split; [exact H2|].
      intros j tj Hj. destruct (decide (i = j)) as [->|Hij].
      + rewrite Hi in Hj. injection Hj as <-. destruct (Hpt j (goto t (QTry p))) as (t' & Ht' & Hc); [apply list_lookup_insert; exact Hlt|].
        exists t'. split; [exact Ht'|]. right. split; [exact Hat|]. destruct Hc as [[_ ->]|[Hx _]]; [eauto|discriminate].
      + apply Hpt. rewrite list_lookup_insert_ne by exact Hij. exact Hj.
  Qed.

  Lemma success_not_oob (t : qthread T) r : success r -> OutOfBounds ∉ q_log t -> OutOfBounds ∉ q_log (finish t r).
  Proof.
    intros Hr Hno H. cbn in H. apply elem_of_app in H as [H|H]; [contradiction|]. apply elem_of_list_singleton in H. subst r. unfold success in Hr; naive_solver.
  Qed.

  Lemma settle_drain s ls : calm s ls -> no_oob ls ->
    exists s' ls', reach gstep (s, ls) (s', ls') /\ calm s' ls' /\ no_oob ls' /\ length ls' = length ls /\ c_n (g_c (q_c s')) = c_n (g_c (q_c s)) /\
      (forall t, t ∈ ls' -> ready t) /\
      (forall i t, ls !! i = Some t -> exists t', ls' !! i = Some t' /\ (ready t /\ t' = t \/ ~ ready t /\ exists r, success r /\ t' = finish t r)).
  Proof.
    intros K Hno. destruct (settle (Z.to_nat (n2 ls)) s ls) as (s1 & ls1 & R1 & K1 & Hno1 & Hl1 & Hn1 & H1 & Hp1); auto.
    { assert (0 <= n2 ls) by (apply sumZ_nonneg; intros u _; cbn beta; destruct (at2 u); lia). lia. }
    assert (Hpend : forall t, t ∈ ls1 -> pend t = 0).
    { intros t Ht. specialize (H1 t Ht). unfold pend, at2 in *. destruct (q_pc t) as [|[|[|[|]]]| | | | | | | |]; try reflexivity. discriminate. }
    assert (Hgap : gap (q_c s1) = 0) by (rewrite (k_gap _ _ K1); apply sumZ_zero; exact Hpend).
    assert (Hrange : forall p, (p < cap)%nat -> 0 <= gm cap (q_c s1) p <= 1).
    { intros p Hp. apply gm_range; [exact Hp|apply (k_inv _ _ K1)|]. pose proof (k_n _ _ K1). unfold gap in Hgap. lia. }
    destruct (drain (gctl cap) cap (gm cap) (gok cap) Hctl w0 (Z.to_nat (nclaimed ls1)) s1 ls1) as (s2 & ls2 & R2 & I2 & Hc2 & Hl2 & Hcl2 & Hd2); auto.
    { pose proof (nclaimed_nonneg ls1). lia. } { apply (k_inv _ _ K1). }
    assert (Hnp2 : forall t, t ∈ ls2 -> at2 t = false /\ claimed t = false /\ OutOfBounds ∉ q_log t).
    { intros t Ht. split; [|split; [apply Hcl2; exact Ht|]]; apply elem_of_list_lookup in Ht as [j Hj].
      - destruct (lookup_lt_is_Some_2 ls1 j) as [tj Htj]; [rewrite <- Hl2; eapply lookup_lt_Some; exact Hj|].
        destruct (Hd2 j tj Htj) as (t' & Ht' & Hdr). rewrite Hj in Ht'. injection Ht' as <-. destruct Hdr as [[_ ->]|[_ (r & _ & ->)]]; [|reflexivity].
        apply H1. eapply elem_of_list_lookup_2; exact Htj.
      - destruct (lookup_lt_is_Some_2 ls1 j) as [tj Htj]; [rewrite <- Hl2; eapply lookup_lt_Some; exact Hj|].
        pose proof (Hno1 tj (elem_of_list_lookup_2 _ _ _ Htj)) as Hnj.
        destruct (Hd2 j tj Htj) as (t' & Ht' & Hdr). rewrite Hj in Ht'. injection Ht' as <-. destruct Hdr as [[_ ->]|[_ (r & Hr & ->)]]; [exact Hnj|].
        apply success_not_oob; assumption. }
    exists s2, ls2. split; [etrans; eassumption|]. split.
    { split; [exact I2| |rewrite Hc2; apply K1]. rewrite Hc2, Hgap. symmetry. apply sumZ_zero. intros t Ht. destruct (Hnp2 t Ht) as [Ha _]. unfold pend, at2 in *.
      destruct (q_pc t) as [|[|[|[|]]]| | | | | | | |]; try reflexivity. discriminate. }
    split; [intros t Ht; apply Hnp2; exact Ht|]. split; [congruence|]. split; [congruence|]. split.
    - intros t Ht. destruct (Hnp2 t Ht) as (Ha & Hc & _). pose proof (i_tok _ _ _ _ _ _ I2 t Ht) as [_ Hk]. unfold ready, at2, claimed in *.
      destruct (q_pc t) as [|[|[|[|]]]| | | | | | | |]; try discriminate; auto. lia.
    - intros i t Hi. destruct (Hp1 i t Hi) as (t1 & Ht1 & Hs1). destruct (Hd2 i t1 Ht1) as (t2 & Ht2 & Hs2). exists t2. split; [exact Ht2|].
      pose proof (i_tok _ _ _ _ _ _ (k_inv _ _ K) t (elem_of_list_lookup_2 _ _ _ Hi)) as [_ Hk].
      destruct Hs1 as [[Ha ->]|[Ha (p & ->)]].
      + destruct Hs2 as [[Hc ->]|[Hc (r & Hr & ->)]].
        * left. split; [|reflexivity]. unfold ready, at2, claimed in *. destruct (q_pc t) as [|[|[|[|]]]| | | | | | | |]; try discriminate; auto. lia.
        * right. split; [|eauto]. unfold ready, claimed in *. destruct (q_pc t); try discriminate; auto.
      + right. split; [unfold ready, at2 in *; destruct (q_pc t) as [|[|[|[|]]]| | | | | | | |]; try discriminate; auto|].
        destruct Hs2 as [[Hc _]|[_ (r & Hr & ->)]]; [discriminate Hc|]. exists r. split; [exact Hr|reflexivity].
  Qed.

  (** a call past its preemptive check that still fits completes *)
  Definition fits_now (n : Z) (t : qthread T) : Prop := if pushing t then n < Z.of_nat cap else 0 < n.
  Lemma run_ready s ls i t : calm s ls -> no_oob ls -> (forall u, u ∈ ls -> ready u) -> ls !! i = Some t -> q_pc t = QCtl 1 -> fits_now (c_n (g_c (q_c s))) t ->
    exists s' r, reach gstep (s, ls) (s', <[i := finish t r]> ls) /\ calm s' (<[i := finish t r]> ls) /\ success r.
  Proof.
    intros K Hno Hrd Hi Hpc Hfit. pose proof (i_tok _ _ _ _ _ _ (k_inv _ _ K) t (elem_of_list_lookup_2 _ _ _ Hi)) as [Hop Hp]. rewrite Hpc in Hp.
    assert (Hlt : (i < length ls)%nat) by (eapply lookup_lt_Some; exact Hi).
    pose proof (Hno t (elem_of_list_lookup_2 _ _ _ Hi)) as Hnot.
    assert (exists s1, gstep i s t = Some (s1, goto t (QCtl 2))) as (s1 & E).
    { unfold qstep. destruct (q_prog t) as [|op rest] eqn:Epr; [destruct Hp; congruence|]. rewrite Hpc. unfold gctl, dctl. pose proof (Hop op ltac:(left)) as Ho.
      unfold fits_now, pushing in Hfit. rewrite Epr in Hfit. destruct op as [k x|k]; cbn [kind_of] in *; cbn in Ho; rewrite Ho.
      - rewrite (proj2 (Z.ltb_lt _ _) Hfit). eauto.
      - rewrite (proj2 (Z.ltb_lt _ _) Hfit). eauto. }
    pose proof (calm_step _ _ _ _ _ _ K Hi E Hnot) as K1.
    destruct (settle_drain s1 (<[i := goto t (QCtl 2)]> ls) K1 (insert_no_oob ls i (goto t (QCtl 2)) Hno Hnot)) as (s2 & ls2 & R2 & K2 & Hno2 & Hl2 & _ & Hr2 & Hp2).
    rewrite insert_length in Hl2.
    destruct (Hp2 i (goto t (QCtl 2))) as (t2 & Ht2 & Hc); [apply list_lookup_insert; exact Hlt|].
    destruct Hc as [[Hx _]|[_ (r & Hr & ->)]]; [exfalso; exact Hx|]. change (finish (goto t (QCtl 2)) r) with (finish t r) in Ht2.
    assert (Els : ls2 = <[i := finish t r]> ls).
    { apply list_eq. intros j. destruct (decide (i = j)) as [->|Hij]; [rewrite Ht2, list_lookup_insert by exact Hlt; reflexivity|].
      rewrite list_lookup_insert_ne by exact Hij. destruct (ls !! j) as [tj|] eqn:Ej.
      - destruct (Hp2 j tj) as (tj' & Htj' & Hdj); [rewrite list_lookup_insert_ne by exact Hij; exact Ej|].
        rewrite Htj'. f_equal. destruct Hdj as [[_ ->]|[Hx _]]; [reflexivity|].
        exfalso. apply Hx. apply Hrd. eapply elem_of_list_lookup_2; exact Ej.
      - apply lookup_ge_None in Ej. apply lookup_ge_None_2. lia. }
    rewrite Els in *. exists s2, r. split; [etrans; [eapply step_reach; eassumption|exact R2]|]. split; [exact K2|exact Hr].
  Qed.

  Lemma insert_ready (ls : list (qthread T)) i t r : (forall u, u ∈ ls -> ready u) -> forall u, u ∈ <[i := finish t r]> ls -> ready u.
  Proof.
    intros H u Hu. apply elem_of_list_lookup in Hu as [j Hj]. destruct (decide (i = j)) as [->|Hij].
    - destruct (decide (j < length ls)%nat).
      + rewrite list_lookup_insert in Hj by assumption. injection Hj as <-. exact Logic.I.
      + rewrite list_insert_ge in Hj by lia. apply H. eapply elem_of_list_lookup_2; exact Hj.
    - rewrite list_lookup_insert_ne in Hj by exact Hij. apply H. eapply elem_of_list_lookup_2; exact Hj.
  Qed.

  (** a call before its preemptive check completes, alone, without a late rejection *)
  Lemma run_call s ls i t : calm s ls -> no_oob ls -> (forall u, u ∈ ls -> ready u) -> ls !! i = Some t -> (q_pc t = QCtl 0 \/ q_pc t = QIdle /\ q_prog t <> []) ->
    exists s' r, reach gstep (s, ls) (s', <[i := finish t r]> ls) /\ calm s' (<[i := finish t r]> ls) /\ r <> OutOfBounds.
  Proof.
    intros K Hno Hrd Hi Hpc.
    assert (Hlt : (i < length ls)%nat) by (eapply lookup_lt_Some; exact Hi).
    (* bring the call to its first counter access *)
    assert (exists ls0, reach gstep (s, ls) (s, ls0) /\ calm s ls0 /\ ls0 = <[i := goto t (QCtl 0)]> ls) as (ls0 & R0 & K0 & E0).
    { destruct Hpc as [Hpc|[Hpc Hne]].
      - exists ls. split; [apply rtc_refl|]. split; [exact K|]. symmetry. apply list_insert_id. rewrite Hi. f_equal. destruct t; cbn in *; subst; reflexivity.
      - assert (E : gstep i s t = Some (s, goto t (QCtl 0))) by (unfold qstep; destruct (q_prog t); [congruence|]; rewrite Hpc; reflexivity).
        eexists. split; [eapply step_reach; eassumption|]. split; [|reflexivity]. eapply calm_step; eauto. apply (Hno t). eapply elem_of_list_lookup_2; exact Hi. }
    assert (Hnot : OutOfBounds ∉ q_log t) by (apply Hno; eapply elem_of_list_lookup_2; exact Hi).
    assert (Hi0 : ls0 !! i = Some (goto t (QCtl 0))) by (rewrite E0; apply list_lookup_insert; exact Hlt).
    pose proof (i_tok _ _ _ _ _ _ (k_inv _ _ K0) _ (elem_of_list_lookup_2 _ _ _ Hi0)) as [Hop Hp]. cbn [goto q_pc q_prog] in Hp, Hop. destruct Hp as [_ Hp].
    pose proof (k_n _ _ K) as Hn.
    assert (Hclamp : clamp_size (Z.of_nat cap) (c_n (g_c (q_c s))) = c_n (g_c (q_c s))).
    { unfold clamp_size. rewrite (proj2 (Z.ltb_ge _ 0)) by lia. rewrite (proj2 (Z.ltb_ge _ _)) by lia. reflexivity. }
    destruct (q_prog t) as [|op rest] eqn:Epr; [congruence|]. pose proof (Hop op ltac:(left)) as Ho.
    assert (Hpush : is_push (kind_of op) = pushing t) by (unfold pushing; rewrite Epr; destruct op; exact Ho).
    destruct (c_n (g_c (q_c s)) =? (if pushing t then Z.of_nat cap else 0)) eqn:Eq.
    - assert (E : gstep i s (goto t (QCtl 0)) = Some (s, finish t Refused)).
      { unfold qstep. cbn [goto q_prog q_pc]. rewrite Epr. unfold gctl, dctl. rewrite Hclamp, Hpush, Eq. reflexivity. }
      assert (Hnf : OutOfBounds ∉ q_log (finish t Refused)).
      { cbn. rewrite elem_of_app, elem_of_list_singleton. intros [H|H]; [contradiction|discriminate]. }
      exists s, Refused. pose proof (calm_step _ _ _ _ _ _ K0 Hi0 E Hnf) as K1. pose proof (step_reach _ _ _ _ _ _ Hi0 E) as R1.
      rewrite E0, list_insert_insert in K1, R1. split; [etrans; [exact R0|]|]; [|split; [exact K1|discriminate]]. rewrite E0. exact R1.
    - assert (E : gstep i s (goto t (QCtl 0)) = Some (s, goto t (QCtl 1))).
      { unfold qstep. cbn [goto q_prog q_pc]. rewrite Epr. unfold gctl, dctl. rewrite Hclamp, Hpush, Eq. destruct s as [[c B E1] d o lk0]. reflexivity. }
      pose proof (calm_step _ _ _ _ _ _ K0 Hi0 E Hnot) as K1. pose proof (step_reach _ _ _ _ _ _ Hi0 E) as R1.
      rewrite E0, list_insert_insert in K1, R1.
      destruct (run_ready s (<[i := goto t (QCtl 1)]> ls) i (goto t (QCtl 1))) as (s2 & r & R2 & K2 & Hr).
      { exact K1. } { apply insert_no_oob; assumption. }
      { intros u Hu. apply elem_of_list_lookup in Hu as [j Hj]. destruct (decide (i = j)) as [->|Hij].
        - rewrite list_lookup_insert in Hj by exact Hlt. injection Hj as <-. exact Logic.I.
        - rewrite list_lookup_insert_ne in Hj by exact Hij. apply Hrd. eapply elem_of_list_lookup_2; exact Hj. }
      { apply list_lookup_insert; exact Hlt. } { reflexivity. }
      { unfold fits_now. change (pushing (goto t (QCtl 1))) with (pushing t). destruct (pushing t); lia. }
      rewrite list_insert_insert in R2, K2. change (finish (goto t (QCtl 1)) r) with (finish t r) in *. exists s2, r.
      split; [etrans; [exact R0|]; rewrite E0; etrans; [exact R1|exact R2]|]. split; [exact K2|]. intros ->. unfold success in Hr. naive_solver.
  Qed.

  Lemma returned_refl (ls : list (qthread T)) : quiescent ls -> returned_calls ls ls.
  Proof. intros Hq. split; [reflexivity|]. intros i t Hi. exists t. split; [exact Hi|]. left. split; [|reflexivity]. apply Hq. eapply elem_of_list_lookup_2; exact Hi. Qed.
  Lemma returned_finish (ls : list (qthread T)) i t r ls' : ls !! i = Some t -> q_pc t <> QIdle -> returned_calls (<[i := finish t r]> ls) ls' -> returned_calls ls ls'.
  Proof.
    intros Hi Hpc [Hlen H]. rewrite insert_length in Hlen. split; [exact Hlen|]. intros j tj Hj. destruct (decide (i = j)) as [->|Hij].
    - rewrite Hi in Hj. injection Hj as <-. destruct (H j (finish t r)) as (t' & Ht' & Hc); [apply list_lookup_insert; eapply lookup_lt_Some; exact Hi|].
      exists t'. split; [exact Ht'|]. right. split; [exact Hpc|]. destruct Hc as [[_ ->]|[Hx _]]; [eauto|]. exfalso. apply Hx. reflexivity.
    - apply H. rewrite list_lookup_insert_ne by exact Hij. exact Hj.
  Qed.
  Definition busy (t : qthread T) : Z := match q_pc t with QIdle => 0 | _ => 1 end.
  Lemma busy_nonneg t : 0 <= busy t.
  Proof. unfold busy. destruct (q_pc t); lia. Qed.
  Lemma busy_finish ls i t r n : ls !! i = Some t -> q_pc t <> QIdle -> sumZ busy ls <= Z.of_nat (S n) -> sumZ busy (<[i := finish t r]> ls) <= Z.of_nat n.
  Proof.
    intros Hi Hpc Hn. rewrite (sumZ_insert _ _ _ _ _ Hi). change (busy (finish t r)) with 0. assert (busy t = 1); [|lia]. unfold busy. destruct (q_pc t); congruence.
  Qed.
  Lemma busy_zero ls : sumZ busy ls <= 0 -> quiescent ls.
  Proof.
    intros H t Ht. apply elem_of_list_lookup in Ht as [i Hi]. pose proof (sumZ_ge_elem busy ls i t (fun u _ => busy_nonneg u) Hi). unfold busy at 1 in H0. destruct (q_pc t); (reflexivity || lia).
  Qed.

  (** the remaining calls are all rejected *)
  Lemma reject_all (push : bool) n : forall (s : qshared T gcnt) ls, sumZ busy ls <= Z.of_nat n -> (forall t, t ∈ ls -> tok cap t) ->
    (forall t, t ∈ ls -> q_pc t = QIdle \/ q_pc t = QCtl 1 /\ pushing t = push) ->
    (if push then Z.of_nat cap <= c_n (g_c (q_c s)) else c_n (g_c (q_c s)) <= 0) ->
    exists s' ls', reach gstep (s, ls) (s', ls') /\ quiescent ls' /\ returned_calls ls ls'.
  Proof.
    induction n as [|n IH]; intros s ls Hn Htok Hpcs Hc.
    - pose proof (busy_zero ls Hn). exists s, ls. split; [apply rtc_refl|]. split; [assumption|]. apply returned_refl; assumption.
    - destruct (decide (sumZ busy ls <= 0)) as [Hz|Hz].
      { pose proof (busy_zero ls Hz). exists s, ls. split; [apply rtc_refl|]. split; [assumption|]. apply returned_refl; assumption. }
      destruct (sumZ_pos_witness busy ls) as (i & t & Hi & Hbt); [intros u _; apply busy_nonneg|lia|].
      assert (Hin : t ∈ ls) by (eapply elem_of_list_lookup_2; exact Hi).
      destruct (Hpcs t Hin) as [Hx|[Hpc Hpu]]; [unfold busy in Hbt; rewrite Hx in Hbt; lia|].
      destruct (Htok t Hin) as [Hop Hk]. rewrite Hpc in Hk.
      assert (exists s1, gstep i s t = Some (s1, finish t OutOfBounds) /\ (if push then Z.of_nat cap <= c_n (g_c (q_c s1)) else c_n (g_c (q_c s1)) <= 0)) as (s1 & E & Hc1).
      { unfold qstep. unfold pushing in Hpu. destruct (q_prog t) as [|op rest] eqn:Epr; [destruct Hk; congruence|]. rewrite Hpc. unfold gctl, dctl.
        pose proof (Hop op ltac:(left)) as Ho. destruct op as [k x|k]; subst push; cbn [kind_of]; cbn in Ho; rewrite Ho.
        - rewrite (proj2 (Z.ltb_ge _ _)) by exact Hc. eexists. split; [reflexivity|]. cbn. lia.
        - rewrite (proj2 (Z.ltb_ge _ _)) by exact Hc. eexists. split; [reflexivity|]. cbn. lia. }
      assert (Hne : q_pc t <> QIdle) by (rewrite Hpc; discriminate).
      assert (Hmem : forall u, u ∈ <[i := finish t OutOfBounds]> ls -> u = finish t OutOfBounds \/ u ∈ ls).
      { intros u Hu. apply elem_of_list_lookup in Hu as [j Hj]. destruct (decide (i = j)) as [->|Hij].
        - rewrite list_lookup_insert in Hj by (eapply lookup_lt_Some; exact Hi). injection Hj as <-. auto.
        - rewrite list_lookup_insert_ne in Hj by exact Hij. right. eapply elem_of_list_lookup_2; exact Hj. }
      destruct (IH s1 (<[i := finish t OutOfBounds]> ls)) as (s2 & ls2 & R2 & Hq2 & Hr2).
      + eapply busy_finish; eassumption.
      + intros u Hu. destruct (Hmem u Hu) as [-> | Hu']; [apply tok_tail; apply Htok; exact Hin|apply Htok; exact Hu'].
      + intros u Hu. destruct (Hmem u Hu) as [-> | Hu']; [left; reflexivity|apply Hpcs; exact Hu'].
      + exact Hc1.
      + exists s2, ls2. split; [etrans; [eapply step_reach; eassumption|exact R2]|]. split; [exact Hq2|]. eapply returned_finish; eassumption.
  Qed.

  Definition runnable (n : Z) (t : qthread T) : bool :=
    match q_pc t with QCtl 0 => true | QCtl 1 => if pushing t then n <? Z.of_nat cap else 0 <? n | _ => false end.
  Lemma runnable_spec n t : runnable n t = true <-> q_pc t = QCtl 0 \/ q_pc t = QCtl 1 /\ fits_now n t.
  Proof.
    unfold runnable, fits_now. destruct (q_pc t) as [|[|[|]]| | | | | | | |]; try (split; [discriminate|intros [H|[H _]]; discriminate]).
    - split; auto.
    - destruct (pushing t); rewrite Z.ltb_lt; split; [auto|intros [H|[_ H]]; [discriminate|exact H]|auto|intros [H|[_ H]]; [discriminate|exact H]].
  Qed.
  Lemma complete_pending n : forall s ls, sumZ busy ls <= Z.of_nat n -> calm s ls -> no_oob ls -> (forall t, t ∈ ls -> ready t) ->
    exists s' ls', reach gstep (s, ls) (s', ls') /\ quiescent ls' /\ returned_calls ls ls'.
  Proof.
    induction n as [|n IH]; intros s ls Hn K Hno Hrd.
    - pose proof (busy_zero ls Hn). exists s, ls. split; [apply rtc_refl|]. split; [assumption|]. apply returned_refl; assumption.
    - destruct (decide (Exists (fun t => runnable (c_n (g_c (q_c s))) t = true) ls)) as [Hex|Hall].
      + apply Exists_exists in Hex as (t & Ht & Hcase). apply runnable_spec in Hcase. pose proof Ht as Hi. apply elem_of_list_lookup in Hi as [i Hi].
        assert (Hne : q_pc t <> QIdle) by (destruct Hcase as [->|[-> _]]; discriminate).
        assert (exists s1 r, reach gstep (s, ls) (s1, <[i := finish t r]> ls) /\ calm s1 (<[i := finish t r]> ls) /\ r <> OutOfBounds) as (s1 & r & R1 & K1 & Hr).
        { destruct Hcase as [Hpc|[Hpc Hf]].
          - apply run_call; auto.
          - destruct (run_ready s ls i t K Hno Hrd Hi Hpc Hf) as (s1 & r & R1 & K1 & Hs). exists s1, r. split; [exact R1|]. split; [exact K1|]. intros ->. unfold success in Hs. naive_solver. }
        destruct (IH s1 (<[i := finish t r]> ls)) as (s2 & ls2 & R2 & Hq2 & Hr2).
        * eapply busy_finish; eassumption.
        * exact K1.
        * apply insert_no_oob; [exact Hno|]. cbn. rewrite elem_of_app, elem_of_list_singleton. intros [H|H]; [exact (Hno t Ht H)|congruence].
        * apply insert_ready. exact Hrd.
        * exists s2, ls2. split; [etrans; eassumption|]. split; [exact Hq2|]. eapply returned_finish; eassumption.
      + assert (Hall' : forall t, t ∈ ls -> ~ (q_pc t = QCtl 0 \/ q_pc t = QCtl 1 /\ fits_now (c_n (g_c (q_c s))) t)).
        { intros t Ht H. apply Hall. apply Exists_exists. exists t. split; [exact Ht|]. apply runnable_spec. exact H. }
        clear Hall. rename Hall' into Hall. pose proof (k_n _ _ K) as Hc.
        assert (Hcases : forall t, t ∈ ls -> q_pc t = QIdle \/ q_pc t = QCtl 1 /\ ~ fits_now (c_n (g_c (q_c s))) t).
        { intros t Ht. specialize (Hrd t Ht). specialize (Hall t Ht). unfold ready in Hrd. destruct (q_pc t) as [|[|[|]]| | | | | | | |]; try contradiction; auto.
          - exfalso. apply Hall. auto.
          - right. split; [reflexivity|]. intros H. apply Hall. auto. }
        assert (Htok : forall t, t ∈ ls -> tok cap t) by apply (k_inv _ _ K).
        destruct (decide (c_n (g_c (q_c s)) = 0)) as [E0|E0].
        * apply (reject_all false (S n)); auto; [|lia]. intros t Ht. destruct (Hcases t Ht) as [H|[H Hf]]; [auto|]. right. split; [exact H|].
          unfold fits_now in Hf. destruct (pushing t); [lia|reflexivity].
        * destruct (decide (c_n (g_c (q_c s)) = Z.of_nat cap)) as [E1|E1].
          -- apply (reject_all true (S n)); auto; [|lia].
             intros t Ht. destruct (Hcases t Ht) as [H|[H Hf]]; [auto|]. right. split; [exact H|]. unfold fits_now in Hf. destruct (pushing t); [reflexivity|lia].
          -- assert (Hq : quiescent ls).
             { intros t Ht. destruct (Hcases t Ht) as [H|[H Hf]]; [exact H|]. exfalso. unfold fits_now in Hf. destruct (pushing t); lia. }
             exists s, ls. split; [apply rtc_refl|]. split; [exact Hq|]. apply returned_refl. exact Hq.
  Qed.

  Lemma deq_pending_complete s ls : reach (qstep (dctl cap)) start (s, ls) -> no_oob ls ->
    exists s' ls', reach (qstep (dctl cap)) (s, ls) (s', ls') /\ quiescent ls' /\ returned_calls ls ls'.
  Proof.
    intros R Hno. destruct (dreach_inv _ _ R) as (sg & -> & Rg & _). pose proof (calm_reach _ _ Rg Hno) as K.
    destruct (settle_drain sg ls K Hno) as (s1 & ls1 & R1 & K1 & Hno1 & Hl1 & _ & Hrd1 & Hp1).
    destruct (complete_pending (Z.to_nat (sumZ busy ls1)) s1 ls1) as (s2 & ls2 & R2 & Hq2 & [Hl2 Hp2]); auto.
    { assert (0 <= sumZ busy ls1) by (apply sumZ_nonneg; intros u _; apply busy_nonneg). lia. }
    exists (er s2), ls2. split; [apply (er_reach (dctl cap) (gctl cap) g_c (gctl_er cap)); etrans; eassumption|]. split; [exact Hq2|].
    split; [congruence|]. intros i t Hi. destruct (Hp1 i t Hi) as (t1 & Ht1 & Hc1). destruct (Hp2 i t1 Ht1) as (t2 & Ht2 & Hc2). exists t2. split; [exact Ht2|].
    destruct Hc1 as [[_ ->]|[Hnr (r & _ & ->)]]; [exact Hc2|]. right. split; [intros E; apply Hnr; unfold ready; rewrite E; exact Logic.I|].
    destruct Hc2 as [[_ ->]|[Hx _]]; [eauto|]. exfalso. apply Hx. reflexivity.
  Qed.

  (** ** all programs complete when no call is between its preemptive check and the size update *)
  Definition early (t : qthread T) : Prop := match q_pc t with QIdle | QCtl 0 => True | _ => False end.
  Lemma complete_programs n : forall s ls, sumZ (fun t => Z.of_nat (length (q_prog t))) ls <= Z.of_nat n -> calm s ls -> no_oob ls -> (forall t, t ∈ ls -> early t) ->
    exists s' ls', reach gstep (s, ls) (s', ls') /\ finished ls' /\ no_oob ls'.
  Proof.
    induction n as [|n IH]; intros s ls Hn K Hno He.
    - exists s, ls. split; [apply rtc_refl|]. split; [|exact Hno]. intros t Ht. pose proof Ht as Hi. apply elem_of_list_lookup in Hi as [i Hi].
      pose proof (sumZ_ge_elem (fun t => Z.of_nat (length (q_prog t))) ls i t (fun u _ => Nat2Z.is_nonneg _) Hi) as H. cbn beta in H.
      assert (Hp : q_prog t = []) by (destruct (q_prog t); [reflexivity|cbn in H; lia]). split; [exact Hp|].
      destruct (i_tok _ _ _ _ _ _ (k_inv _ _ K) t Ht) as [_ Hk]. specialize (He t Ht). unfold early in He. destruct (q_pc t) as [|[]| | | | | | | |]; try contradiction; [reflexivity|].
      destruct Hk; congruence.
    - destruct (decide (Exists (fun t => q_prog t <> []) ls)) as [Hex|Hall].
      + apply Exists_exists in Hex as (t & Ht & Hne). pose proof Ht as Hi. apply elem_of_list_lookup in Hi as [i Hi].
        assert (Hrd : forall u, u ∈ ls -> ready u).
        { intros u Hu. specialize (He u Hu). unfold early, ready in *. destruct (q_pc u) as [|[]| | | | | | | |]; auto; contradiction. }
        destruct (run_call s ls i t K Hno Hrd Hi) as (s1 & r & R1 & K1 & Hr).
        { specialize (He t Ht). unfold early in He. destruct (q_pc t) as [|[]| | | | | | | |]; try contradiction; auto. }
        destruct (IH s1 (<[i := finish t r]> ls)) as (s2 & ls2 & R2 & F2 & Hno2).
        * rewrite (sumZ_insert _ _ _ _ _ Hi). cbn [finish q_prog]. destruct (q_prog t); [congruence|]. cbn [tail length]. lia.
        * exact K1.
        * apply insert_no_oob; [exact Hno|]. cbn. rewrite elem_of_app, elem_of_list_singleton. intros [H|H]; [exact (Hno t Ht H)|congruence].
        * intros u Hu. apply elem_of_list_lookup in Hu as [j Hj]. destruct (decide (i = j)) as [->|Hij].
          -- rewrite list_lookup_insert in Hj by (eapply lookup_lt_Some; exact Hi). injection Hj as <-. exact Logic.I.
          -- rewrite list_lookup_insert_ne in Hj by exact Hij. apply He. eapply elem_of_list_lookup_2; exact Hj.
        * exists s2, ls2. split; [etrans; eassumption|]. auto.
      + exists s, ls. split; [apply rtc_refl|]. split; [|exact Hno]. intros t Ht.
        assert (Hp : q_prog t = []).
        { destruct (q_prog t) eqn:E; [reflexivity|]. exfalso. apply Hall. apply Exists_exists. exists t. rewrite E. split; [exact Ht|discriminate]. }
        split; [exact Hp|]. destruct (i_tok _ _ _ _ _ _ (k_inv _ _ K) t Ht) as [_ Hk]. specialize (He t Ht). unfold early in He.
        destruct (q_pc t) as [|[]| | | | | | | |]; try contradiction; [reflexivity|]. destruct Hk; congruence.
  Qed.
  Lemma deq_programs_complete s ls : reach (qstep (dctl cap)) start (s, ls) -> no_oob ls -> (forall t, t ∈ ls -> q_pc t <> QCtl 1) ->
    exists s' ls', reach (qstep (dctl cap)) (s, ls) (s', ls') /\ finished ls' /\ no_oob ls'.
  Proof.
    intros R Hno He. destruct (dreach_inv _ _ R) as (sg & -> & Rg & _). pose proof (calm_reach _ _ Rg Hno) as K.
    destruct (settle_drain sg ls K Hno) as (s1 & ls1 & R1 & K1 & Hno1 & Hl1 & _ & Hrd1 & Hp1).
    destruct (complete_programs (Z.to_nat (sumZ (fun t => Z.of_nat (length (q_prog t))) ls1)) s1 ls1) as (s2 & ls2 & R2 & F2 & Hno2); auto.
    { assert (0 <= sumZ (fun t => Z.of_nat (length (q_prog t))) ls1) by (apply sumZ_nonneg; intros; lia). lia. }
    { intros t Ht. pose proof (Hrd1 t Ht) as Hr. apply elem_of_list_lookup in Ht as [j Hj].
      destruct (lookup_lt_is_Some_2 ls j) as [tj Htj]; [rewrite <- Hl1; eapply lookup_lt_Some; exact Hj|].
      destruct (Hp1 j tj Htj) as (t' & Ht' & Hc). rewrite Hj in Ht'. injection Ht' as <-. destruct Hc as [[_ ->]|[_ (r & _ & ->)]]; [|exact Logic.I].
      specialize (He tj (elem_of_list_lookup_2 _ _ _ Htj)). unfold ready, early in *. destruct (q_pc tj) as [|[|[|]]| | | | | | | |]; auto; congruence. }
    exists (er s2), ls2. split; [apply (er_reach (dctl cap) (gctl cap) g_c (gctl_er cap)); etrans; eassumption|]. auto.
  Qed.

  (** ** quiescent states *)
  Lemma deq_quiescent s ls : reach (qstep (dctl cap)) start (s, ls) -> quiescent ls -> no_oob ls ->
    d_valid (as_deq s) = true /\ d_size (as_deq s) = Z.of_nat (length (stored (q_data s))) /\
    (forall p, (p < cap)%nat -> q_locks s !! p = Some false /\
       q_occ s !! p = Some (bool_decide (Z.of_nat (ring_dist cap (Z.to_nat (d_begin (as_deq s))) p) < d_size (as_deq s))) /\
       exists d, q_data s !! p = Some d /\ (d <> None <-> Z.of_nat (ring_dist cap (Z.to_nat (d_begin (as_deq s))) p) < d_size (as_deq s))) /\
    d_end (as_deq s) = (d_begin (as_deq s) + d_size (as_deq s)) mod Z.of_nat cap.
  Proof.
    intros R Hq Hno. destruct (dreach_inv _ _ R) as (sg & -> & Rg & _). pose proof (calm_reach _ _ Rg Hno) as K.
    destruct (at_rest cap (gm cap) (gok cap) _ _ _ (k_inv _ _ K) Hq) as [Hrest _]. pose proof (k_n _ _ K) as Hn. pose proof (k_gap _ _ K) as Hg.
    rewrite sumZ_zero in Hg by (intros t Ht; unfold pend; rewrite (Hq t Ht); reflexivity). unfold gap in Hg.
    destruct (i_len _ _ _ _ _ _ (k_inv _ _ K)) as (L1 & L2 & L3). pose proof (i_cok _ _ _ _ _ _ (k_inv _ _ K)) as Hok.
    set (n := c_n (g_c (q_c sg))) in *. set (B := Z.to_nat (c_begin (g_c (q_c sg)))).
    assert (Hbb : 0 <= c_begin (g_c (q_c sg)) < Z.of_nat cap) by (destruct Hok as [-> _]; apply Z.mod_pos_bound; lia).
    assert (Hcp : v_capacity (d_v (as_deq (er sg))) = Z.of_nat cap) by (unfold v_capacity; cbn; rewrite L2; reflexivity).
    assert (Hsz : d_size (as_deq (er sg)) = n).
    { unfold d_size, v_size. rewrite Hcp. change (v_n (d_v (as_deq (er sg)))) with n. unfold clamp_size. rewrite (proj2 (Z.ltb_ge _ 0)) by lia. rewrite (proj2 (Z.ltb_ge _ _)) by lia. reflexivity. }
    assert (Hocc : forall p, (p < cap)%nat -> lk (q_occ sg) p = bool_decide (Z.of_nat (ring_dist cap B p) < n)).
    { intros p Hp. destruct (Hrest p Hp) as (_ & H2 & _). rewrite gm_ring in H2 by (assumption || lia). fold B in H2.
      destruct (bool_decide_reflect (Z.of_nat (ring_dist cap B p) < n)), (Z.ltb_spec (Z.of_nat (ring_dist cap B p)) (g_E (q_c sg) - g_B (q_c sg))); destruct (lk (q_occ sg) p); cbn in H2; try reflexivity; lia. }
    assert (Hcnt : bcount (q_occ sg) = n).
    { rewrite (bcount_ring cap B (Z.to_nat n)); [lia|unfold B; lia|lia|exact L2|]. intros p Hp. rewrite lk_Some by lia. rewrite Hocc by exact Hp. f_equal. apply bool_decide_ext. lia. }
    assert (Hlk : q_locks sg = replicate cap false).
    { apply list_eq. intros p. destruct (decide (p < cap)%nat) as [Hp|Hp].
      - rewrite lookup_replicate_2 by exact Hp. rewrite lk_Some by lia. destruct (Hrest p Hp) as (-> & _). reflexivity.
      - rewrite !lookup_ge_None_2; [reflexivity|rewrite replicate_length; lia|lia]. }
    split; [|split; [|split]].
    - unfold d_valid, v_valid. change (v_size (d_v (as_deq (er sg)))) with (d_size (as_deq (er sg))). rewrite Hcp, Hsz. change (v_n (d_v (as_deq (er sg)))) with n.
      change (v_occ (d_v (as_deq (er sg)))) with (q_occ sg). change (v_locks (d_v (as_deq (er sg)))) with (q_locks sg). rewrite Hcnt, Hlk, bcount_replicate_false.
      destruct (Z.of_nat cap =? 0) eqn:E; [reflexivity|]. lia.
    - rewrite Hsz. change (q_data (er sg)) with (q_data sg). rewrite <- Hcnt.
      assert (Hgen : forall (o : list bool) (d : list (option T)), length d = length o -> (forall p, (p < length o)%nat -> live (lkd d p) = Z.b2z (lk o p)) -> bcount o = Z.of_nat (length (stored d))).
      { clear. induction o as [|x o IH]; intros [|y d] Hlen H; try discriminate; [reflexivity|]. cbn [length] in *.
        specialize (IH d ltac:(lia) (fun p Hp => H (S p) ltac:(lia))). pose proof (H 0%nat ltac:(lia)) as H0. change (live y = Z.b2z x) in H0.
        unfold bcount, stored in *. rewrite filter_cons. destruct x, y; cbn in H0; try discriminate; cbn.
        - rewrite decide_True by reflexivity. cbn [length]. lia.
        - rewrite decide_False by discriminate. exact IH. }
      apply Hgen; [congruence|]. intros p Hp. apply Hrest. lia.
    - intros p Hp. rewrite Hsz. cbn [er_s q_locks q_occ q_data as_deq d_begin q_c]. fold B. split; [rewrite Hlk; apply lookup_replicate_2; exact Hp|].
      split; [rewrite lk_Some by lia; rewrite Hocc by exact Hp; reflexivity|]. exists (lkd (q_data sg) p). split; [apply lkd_Some; lia|].
      destruct (Hrest p Hp) as (_ & _ & H3). rewrite Hocc in H3 by exact Hp. destruct (bool_decide_reflect (Z.of_nat (ring_dist cap B p) < n)); destruct (lkd (q_data sg) p); cbn in H3; try discriminate; split; (congruence || intros; (assumption || discriminate || lia)).
    - rewrite Hsz. cbn [er_s as_deq d_end d_begin q_c]. destruct Hok as [-> ->]. rewrite Zplus_mod_idemp_l. f_equal. lia.
  Qed.
End dconc.

(** ** the two deque models agree: a call that runs alone in the step machine does what the sequential function does *)
Section solo.
  Context {T : Type} (cap : nat).
  Notation sstep i := (fun a b : qshared T dcnt * qthread T => qstep (dctl cap) i a.1 a.2 = Some b).

  Lemma insert_same' {A} (l : list A) p x y : l !! p = Some y -> <[p := y]> (<[p := x]> l) = l.
  Proof. intros H. rewrite list_insert_insert. apply list_insert_id. exact H. Qed.

  Lemma solo_slot_push i s (t : qthread T) k x rest p : q_prog t = QPush k x :: rest -> q_locks s !! p = Some false -> q_occ s !! p = Some false ->
    exists s', rtc (sstep i) (s, goto t (QTry p)) (s', finish t (Pushed x)) /\ q_c s' = q_c s /\ q_data s' = <[p := Some x]> (q_data s) /\ q_occ s' = <[p := true]> (q_occ s) /\ q_locks s' = q_locks s.
  Proof.
    intros Hp El Eo. exists (with_lock (with_occ (with_data (with_lock s p true) p (Some x)) p true) p false).
    split; [|cbn; repeat split; apply insert_same'; exact El].
    eapply rtc_l with (y := (with_lock s p true, goto t (QCheck p))). { unfold qstep. cbn [fst snd q_pc goto q_prog]. rewrite Hp, El. reflexivity. }
    eapply rtc_l with (y := (with_lock s p true, goto t (QConstruct p))). { unfold qstep. cbn [fst snd q_pc goto q_prog]. rewrite Hp. cbn [with_lock q_occ]. rewrite Eo. reflexivity. }
    eapply rtc_l with (y := (with_data (with_lock s p true) p (Some x), goto t (QSet p))). { unfold qstep. cbn [fst snd q_pc goto q_prog]. rewrite Hp. reflexivity. }
    eapply rtc_l with (y := (with_occ (with_data (with_lock s p true) p (Some x)) p true, goto t (QUnlock p (Some (Pushed x))))). { unfold qstep. cbn [fst snd q_pc goto q_prog]. rewrite Hp. reflexivity. }
    eapply rtc_l; [|apply rtc_refl]. unfold qstep. cbn [fst snd q_pc goto q_prog]. rewrite Hp. reflexivity.
  Qed.
  Lemma solo_slot_pop i s (t : qthread T) k y rest p : q_prog t = QPop k :: rest -> q_locks s !! p = Some false -> q_occ s !! p = Some true -> q_data s !! p = Some (Some y) ->
    exists s', rtc (sstep i) (s, goto t (QTry p)) (s', finish t (Popped y)) /\ q_c s' = q_c s /\ q_data s' = <[p := None]> (q_data s) /\ q_occ s' = <[p := false]> (q_occ s) /\ q_locks s' = q_locks s.
  Proof.
    intros Hp El Eo Ed. exists (with_lock (with_data (with_occ (with_lock s p true) p false) p None) p false).
    split; [|cbn; repeat split; apply insert_same'; exact El].
    eapply rtc_l with (y := (with_lock s p true, goto t (QCheck p))). { unfold qstep. cbn [fst snd q_pc goto q_prog]. rewrite Hp, El. reflexivity. }
    eapply rtc_l with (y := (with_lock s p true, goto t (QReset p))). { unfold qstep. cbn [fst snd q_pc goto q_prog]. rewrite Hp. cbn [with_lock q_occ]. rewrite Eo. reflexivity. }
    eapply rtc_l with (y := (with_occ (with_lock s p true) p false, goto t (QRead p))). { unfold qstep. cbn [fst snd q_pc goto q_prog]. rewrite Hp. reflexivity. }
    eapply rtc_l with (y := (with_occ (with_lock s p true) p false, goto t (QDestroy p y))). { unfold qstep. cbn [fst snd q_pc goto q_prog]. rewrite Hp. cbn [with_lock with_occ q_data]. rewrite Ed. reflexivity. }
    eapply rtc_l with (y := (with_data (with_occ (with_lock s p true) p false) p None, goto t (QUnlock p (Some (Popped y))))). { unfold qstep. cbn [fst snd q_pc goto q_prog]. rewrite Hp. reflexivity. }
    eapply rtc_l; [|apply rtc_refl]. unfold qstep. cbn [fst snd q_pc goto q_prog]. rewrite Hp. reflexivity.
  Qed.

  Lemma solo_reach' i (ls : list (qthread T)) s t s' t' : rtc (sstep i) (s, t) (s', t') -> ls !! i = Some t -> reach (qstep (dctl cap)) (s, ls) (s', <[i := t']> ls).
  Proof.
    intros H. remember (s, t) as a eqn:Ea. remember (s', t') as c eqn:Ec. revert ls s t Ea Ec. induction H as [a|a a1 c Hab _ IH]; intros ls s t Ea Ec Hi; subst.
    - injection Ec as -> ->. rewrite list_insert_id by exact Hi. apply rtc_refl.
    - destruct a1 as [s1 t1]. assert (Hlt : (i < length ls)%nat) by (eapply lookup_lt_Some; exact Hi).
      specialize (IH (<[i := t1]> ls) s1 t1 eq_refl eq_refl (list_lookup_insert _ _ _ Hlt)). rewrite list_insert_insert in IH.
      eapply rtc_l; [|exact IH]. econstructor; eassumption.
  Qed.

  Lemma solo_push (front : bool) (s : qshared T dcnt) x (d' : deq T) r0 i (ls : list (qthread T)) (t : qthread T) rest : length (q_occ s) = cap -> - 2 ^ 31 <= c_n (q_c s) < INT_MAX ->
    (if front then d_push_front (as_deq s) x else d_push_back (as_deq s) x) = Ret (d', r0) ->
    ls !! i = Some t -> q_prog t = QPush (if front then KPushFront else KPushBack) x :: rest -> q_pc t = QIdle ->
    exists s' r, reach (qstep (dctl cap)) (s, ls) (s', <[i := finish t r]> ls) /\ same_deq s' d' /\ (r0 = true <-> r = Pushed x) /\ (r0 = false <-> r = Refused \/ r = OutOfBounds).
  Proof.
    intros Hcap Hint E Hi Hp Hpc. set (k := if front then KPushFront else KPushBack) in *.
    assert (Hk : is_push k = true) by (unfold k; destruct front; reflexivity).
    assert (Hc : v_capacity (d_v (as_deq s)) = Z.of_nat cap) by (unfold v_capacity; cbn; rewrite Hcap; reflexivity).
    assert (Hc2 : forall n, d_capacity (d_set_v (as_deq s) (v_set_n (d_v (as_deq s)) n)) = Z.of_nat cap) by (intros; exact Hc).
    assert (S1 : qstep (dctl cap) i s t = Some (s, goto t (QCtl 0))) by (unfold qstep; rewrite Hp, Hpc; reflexivity).
    assert (Hwrap : to_int32 (c_n (q_c s) + 1) = c_n (q_c s) + 1) by (apply to_int32_id; lia).
    destruct (clamp_size (Z.of_nat cap) (c_n (q_c s)) =? Z.of_nat cap) eqn:Ef.
    - assert (Hfull : d_full (as_deq s) = true) by (unfold d_full, v_full, v_size; rewrite Hc; exact Ef).
      assert (d' = as_deq s /\ r0 = false) as [-> ->] by (destruct front; unfold d_push_front, d_push_back in E; rewrite Hfull in E; injection E as <- <-; auto).
      exists s, Refused. split; [|split; [repeat split|split; [split; discriminate|split; auto]]].
      eapply solo_reach'; [|exact Hi]. eapply rtc_l; [exact S1|]. eapply rtc_l; [|apply rtc_refl]. unfold qstep. cbn [fst snd q_pc goto q_prog]. rewrite Hp. cbn [kind_of dctl]. rewrite Hk, Ef. reflexivity.
    - assert (Hfull : d_full (as_deq s) = false) by (unfold d_full, v_full, v_size; rewrite Hc; exact Ef).
      assert (S2 : qstep (dctl cap) i s (goto t (QCtl 0)) = Some (s, goto t (QCtl 1))).
      { unfold qstep. cbn [goto q_prog q_pc]. rewrite Hp. cbn [kind_of dctl]. rewrite Hk, Ef. destruct s as [[] ? ? ?]; reflexivity. }
      set (c1 := {| c_n := c_n (q_c s) + 1; c_begin := c_begin (q_c s); c_end := c_end (q_c s) |}).
      destruct (c_n (q_c s) <? Z.of_nat cap) eqn:Elt.
      + assert (S3 : qstep (dctl cap) i s (goto t (QCtl 1)) = Some (with_c s c1, goto t (QCtl 2))).
        { unfold qstep. cbn [goto q_prog q_pc]. rewrite Hp. cbn [kind_of dctl]. rewrite Hk, Elt. reflexivity. }
        set (p := if front then Z.to_nat (dec_reconstruct (Z.of_nat cap) (c_begin (q_c s))) else Z.to_nat (c_end (q_c s))).
        set (c2 := if front then {| c_n := c_n (q_c s) + 1; c_begin := dec_mod (Z.of_nat cap) (c_begin (q_c s)); c_end := c_end (q_c s) |}
                   else {| c_n := c_n (q_c s) + 1; c_begin := c_begin (q_c s); c_end := inc_mod (Z.of_nat cap) (c_end (q_c s)) |}).
        assert (S4 : qstep (dctl cap) i (with_c s c1) (goto t (QCtl 2)) = Some (with_c s c2, goto t (QTry p))).
        { unfold qstep. cbn [goto q_prog q_pc]. rewrite Hp. unfold k, p, c2. destruct front; reflexivity. }
        assert (Hslot : q_locks s !! p = Some false /\ q_occ s !! p = Some false /\ r0 = true /\
           same_deq {| q_c := c2; q_data := <[p := Some x]> (q_data s); q_occ := <[p := true]> (q_occ s); q_locks := q_locks s |} d').
        { unfold p, c2. destruct front; unfold d_push_front, d_push_back in E; rewrite Hfull in E; cbv zeta in E; rewrite Hc2 in E;
            cbn [d_set_v d_set_end d_set_begin d_v d_begin d_end as_deq v_n] in E; rewrite Elt, Hwrap in E; unfold slot_push in E; cbn [v_set_n v_locks v_occ] in E;
            (match type of E with context [q_locks s !! ?q] => destruct (q_locks s !! q) as [[]|] eqn:El; try discriminate; destruct (q_occ s !! q) as [[]|] eqn:Eo; try discriminate end);
            injection E as <- <-; repeat split; assumption. }
        destruct Hslot as (El & Eo & -> & Hsame).
        destruct (solo_slot_push i (with_c s c2) t k x rest p Hp El Eo) as (s' & Rs & H1 & H2 & H3 & H4).
        exists s', (Pushed x). split; [|split; [|split; [split; auto|split; [discriminate|intros [X|X]; discriminate]]]].
        * eapply solo_reach'; [|exact Hi]. eapply rtc_l; [exact S1|]. eapply rtc_l; [exact S2|]. eapply rtc_l; [exact S3|]. eapply rtc_l; [exact S4|]. exact Rs.
        * unfold same_deq in *. rewrite H1, H2, H3, H4. exact Hsame.
      + assert (S3 : qstep (dctl cap) i s (goto t (QCtl 1)) = Some (with_c s c1, finish t OutOfBounds)).
        { unfold qstep. cbn [goto q_prog q_pc]. rewrite Hp. cbn [kind_of dctl]. rewrite Hk, Elt. reflexivity. }
        assert (same_deq (with_c s c1) d' /\ r0 = false) as [Hsame ->].
        { destruct front; unfold d_push_front, d_push_back in E; rewrite Hfull in E; cbv zeta in E; rewrite Hc2 in E; cbn [as_deq d_v v_n] in E; rewrite Elt, Hwrap in E; injection E as <- <-; repeat split. }
        exists (with_c s c1), OutOfBounds. split; [|split; [exact Hsame|split; [split; discriminate|split; auto]]].
        eapply solo_reach'; [|exact Hi]. eapply rtc_l; [exact S1|]. eapply rtc_l; [exact S2|]. eapply rtc_l; [exact S3|]. apply rtc_refl.
  Qed.

  Lemma solo_pop (front : bool) (s : qshared T dcnt) (d' : deq T) o i (ls : list (qthread T)) (t : qthread T) rest : length (q_occ s) = cap -> - 2 ^ 31 < c_n (q_c s) <= INT_MAX ->
    (if front then d_pop_front (as_deq s) else d_pop_back (as_deq s)) = Ret (d', o) ->
    ls !! i = Some t -> q_prog t = QPop (if front then KPopFront else KPopBack) :: rest -> q_pc t = QIdle ->
    exists s' r, reach (qstep (dctl cap)) (s, ls) (s', <[i := finish t r]> ls) /\ same_deq s' d' /\
      match o with Some y => r = Popped y | None => r = Refused \/ r = OutOfBounds end.
  Proof.
    intros Hcap Hint E Hi Hp Hpc. set (k := if front then KPopFront else KPopBack) in *.
    assert (Hk : is_push k = false) by (unfold k; destruct front; reflexivity).
    set (d0 := d_set_v (as_deq s) (v_log (d_v (as_deq s)) EvInitCopy)).
    assert (Hc : v_capacity (d_v d0) = Z.of_nat cap) by (unfold v_capacity; cbn; rewrite Hcap; reflexivity).
    assert (Hc2 : forall n, d_capacity (d_set_v d0 (v_set_n (d_v d0) n)) = Z.of_nat cap) by (intros; exact Hc).
    assert (S1 : qstep (dctl cap) i s t = Some (s, goto t (QCtl 0))) by (unfold qstep; rewrite Hp, Hpc; reflexivity).
    assert (Hwrap : to_int32 (c_n (q_c s) - 1) = c_n (q_c s) - 1) by (apply to_int32_id; lia).
    assert (Hd0 : v_n (d_v d0) = c_n (q_c s) /\ v_locks (d_v d0) = q_locks s /\ v_occ (d_v d0) = q_occ s /\ v_data (d_v d0) = q_data s) by (repeat split).
    destruct (clamp_size (Z.of_nat cap) (c_n (q_c s)) =? 0) eqn:Ef.
    - assert (Hemp : d_empty d0 = true) by (unfold d_empty, v_empty, v_size; rewrite Hc; exact Ef).
      assert (d' = d0 /\ o = None) as [-> ->] by (destruct front; unfold d_pop_front, d_pop_back in E; cbv zeta in E; fold d0 in E; rewrite Hemp in E; injection E as <- <-; auto).
      exists s, Refused. split; [|split; [repeat split|auto]].
      eapply solo_reach'; [|exact Hi]. eapply rtc_l; [exact S1|]. eapply rtc_l; [|apply rtc_refl]. unfold qstep. cbn [fst snd q_pc goto q_prog]. rewrite Hp. cbn [kind_of dctl]. rewrite Hk, Ef. reflexivity.
    - assert (Hemp : d_empty d0 = false) by (unfold d_empty, v_empty, v_size; rewrite Hc; exact Ef).
      assert (S2 : qstep (dctl cap) i s (goto t (QCtl 0)) = Some (s, goto t (QCtl 1))).
      { unfold qstep. cbn [goto q_prog q_pc]. rewrite Hp. cbn [kind_of dctl]. rewrite Hk, Ef. destruct s as [[] ? ? ?]; reflexivity. }
      set (c1 := {| c_n := c_n (q_c s) - 1; c_begin := c_begin (q_c s); c_end := c_end (q_c s) |}).
      destruct (0 <? c_n (q_c s)) eqn:Elt.
      + assert (S3 : qstep (dctl cap) i s (goto t (QCtl 1)) = Some (with_c s c1, goto t (QCtl 2))).
        { unfold qstep. cbn [goto q_prog q_pc]. rewrite Hp. cbn [kind_of dctl]. rewrite Hk, Elt. reflexivity. }
        set (p := if front then Z.to_nat (c_begin (q_c s)) else Z.to_nat (dec_reconstruct (Z.of_nat cap) (c_end (q_c s)))).
        set (c2 := if front then {| c_n := c_n (q_c s) - 1; c_begin := inc_mod (Z.of_nat cap) (c_begin (q_c s)); c_end := c_end (q_c s) |}
                   else {| c_n := c_n (q_c s) - 1; c_begin := c_begin (q_c s); c_end := dec_mod (Z.of_nat cap) (c_end (q_c s)) |}).
        assert (S4 : qstep (dctl cap) i (with_c s c1) (goto t (QCtl 2)) = Some (with_c s c2, goto t (QTry p))).
        { unfold qstep. cbn [goto q_prog q_pc]. rewrite Hp. unfold k, p, c2. destruct front; reflexivity. }
        assert (Hslot : q_locks s !! p = Some false /\ q_occ s !! p = Some true /\ exists y, q_data s !! p = Some (Some y) /\ o = Some y /\
           same_deq {| q_c := c2; q_data := <[p := None]> (q_data s); q_occ := <[p := false]> (q_occ s); q_locks := q_locks s |} d').
        { unfold p, c2. destruct front; unfold d_pop_front, d_pop_back in E; cbv zeta in E; fold d0 in E; rewrite Hemp in E; rewrite Hc2 in E;
            unfold d0 in E; cbn [d_set_v d_set_end d_set_begin d_v d_begin d_end as_deq v_log v_n v_ev] in E; rewrite Elt, Hwrap in E; unfold slot_pop in E; cbn [v_set_n v_set_occ v_log v_locks v_occ v_data] in E;
            (match type of E with context [q_locks s !! ?q] => destruct (q_locks s !! q) as [[]|] eqn:El; try discriminate; destruct (q_occ s !! q) as [[]|] eqn:Eo; try discriminate;
               destruct (q_data s !! q) as [[y|]|] eqn:Ed; try discriminate end);
            injection E as <- <-; (split; [first [assumption|reflexivity]|]); (split; [first [assumption|reflexivity]|]); exists y; repeat split. }
        destruct Hslot as (El & Eo & y & Ed & -> & Hsame).
        destruct (solo_slot_pop i (with_c s c2) t k y rest p Hp El Eo Ed) as (s' & Rs & H1 & H2 & H3 & H4).
        exists s', (Popped y). split; [|split; [|reflexivity]].
        * eapply solo_reach'; [|exact Hi]. eapply rtc_l; [exact S1|]. eapply rtc_l; [exact S2|]. eapply rtc_l; [exact S3|]. eapply rtc_l; [exact S4|]. exact Rs.
        * unfold same_deq in *. rewrite H1, H2, H3, H4. exact Hsame.
      + assert (S3 : qstep (dctl cap) i s (goto t (QCtl 1)) = Some (with_c s c1, finish t OutOfBounds)).
        { unfold qstep. cbn [goto q_prog q_pc]. rewrite Hp. cbn [kind_of dctl]. rewrite Hk, Elt. reflexivity. }
        assert (same_deq (with_c s c1) d' /\ o = None) as [Hsame ->].
        { destruct front; unfold d_pop_front, d_pop_back in E; cbv zeta in E; fold d0 in E; rewrite Hemp in E; rewrite Hc2 in E; unfold d0 in E; cbn [as_deq d_set_v d_v v_log v_n] in E; rewrite Elt, Hwrap in E; injection E as <- <-; repeat split. }
        exists (with_c s c1), OutOfBounds. split; [|split; [exact Hsame|auto]].
        eapply solo_reach'; [|exact Hi]. eapply rtc_l; [exact S1|]. eapply rtc_l; [exact S2|]. eapply rtc_l; [exact S3|]. apply rtc_refl.
  Qed.
End solo.

(** ** C27: after a push beyond the capacity has returned false, a later pop never returns *)
Definition c27_progs : list (list (qop nat)) := [[QPush KPushBack 7%nat]; [QPush KPushBack 8%nat; QPop KPopFront; QPop KPopFront]].
Definition c27_pc (k : nat) : qpc nat := match k with 0 => QTry 0 | 1 => QCheck 0 | _ => QUnlock 0 None end%nat.
Definition c27_state (k : nat) : qshared nat dcnt * list (qthread nat) :=
  ({| q_c := {| c_n := 0; c_begin := 0; c_end := 0 |}; q_data := [None]; q_occ := [false]; q_locks := [negb (k =? 0)%nat] |},
   [{| q_prog := []; q_pc := QIdle; q_log := [Pushed 7%nat] |};
    {| q_prog := [QPop KPopFront]; q_pc := c27_pc k; q_log := [OutOfBounds; Popped 7%nat] |}]).
Lemma c27_forever k c : reach (qstep (dctl 1)) (c27_state k) c -> exists k', c = c27_state k'.
Proof.
  intros H. remember (c27_state k) as c0 eqn:E. revert k E. induction H as [c|c1 c2 c3 H1 _ IH]; intros k ->; [eauto|].
  assert (exists k', c2 = c27_state k') as [k' ->]; [|eapply IH; reflexivity].
  unfold c27_state in H1. inversion H1 as [s ls i t s' t' Hi Hst]. subst. clear H1.
  destruct i as [|[|i]]; cbn in Hi; try discriminate; injection Hi as <-.
  - discriminate.
  - destruct k as [|[|k]]; cbn in Hst; injection Hst as <- <-; cbn.
    + exists 1%nat. reflexivity.
    + exists 2%nat. reflexivity.
    + exists 0%nat. reflexivity.
Qed.
