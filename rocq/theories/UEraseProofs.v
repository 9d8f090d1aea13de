(** Concurrent erases and lookups on the unordered containers: the invariant. *)
From Verif Require Import Base Conc SlotModel SlotSpec SlotProofs VectorModel VectorProofs VectorConcProofs HashProofs UnorderedModel UnorderedSpec UnorderedProofs UConcModel UConcSpec UConcProofs UConcReach UConcFinal UConcEnd UEraseModel UEraseSpec.

Local Arguments pushed_by : simpl never.
Local Arguments popped_by : simpl never.

Lemma perm_sum {A} (l1 l2 : list A) (w : A -> Z) : l1 ≡ₚ l2 -> sumZ w l1 = sumZ w l2.
Proof. induction 1 as [|x l l' _ IH|x y l|l l' l'' _ IH1 _ IH2]; cbn; lia. Qed.

(** *** one step of the push_back of an erase, as long as there is room *)
Section vpush.
  Context (cap : nat).
  Notation vinv F := (inv (T:=Z) (C:=Z) cap vm (fun _ => True) (fun w => sumZ w (Z.of_nat <$> F))).
  Lemma push_step F s qs i q p s' q' : vinv F s qs -> qs !! i = Some q -> q_prog q = [QPush KPushBack (Z.of_nat p)] -> q_log q = [] ->
    (claimed q = false -> 0 <= q_c s < Z.of_nat cap) -> qstep (vctl cap) i s q = Some (s', q') ->
    (q_prog q' = q_prog q /\ q_log q' = [] /\ vinv F s' (<[i := q']> qs) /\ q_c s' - q_c s = bal q' - bal q) \/
    (q_prog q' = [] /\ vinv (p :: F) s' (<[i := fresh_call []]> qs) /\ q_c s' - q_c s = 1 - bal q).
  Proof.
    intros I Hi Ep El Hc Hst. assert (Hin : q ∈ qs) by (eapply elem_of_list_lookup_2; exact Hi).
    pose proof (step_inv (vctl cap) cap vm (fun _ => True) (vctl_ok cap) _ _ _ _ _ _ _ I Hi Hst) as I'.
    pose proof (i_tok _ _ _ _ _ _ I q Hin) as Hok.
    assert (HL : (q_prog q' = q_prog q /\ q_log q' = []) \/ (q' = finish q (Pushed (Z.of_nat p)))).
    { unfold qstep in Hst. rewrite Ep in Hst. destruct Hok as [_ Hok]. destruct (q_pc q) as [|m|x|x|x|x|x|x|x y|x r] eqn:Epc.
      - injection Hst as <- <-. left. cbn. rewrite El. auto.
      - assert (Hcl : 0 <= q_c s < Z.of_nat cap) by (apply Hc; unfold claimed; rewrite Epc; reflexivity). cbn [kind_of] in Hst. unfold vctl in Hst. destruct m as [|m].
        + unfold clamp_size in Hst. rewrite (proj2 (Z.ltb_ge _ _)) in Hst by lia. rewrite (proj2 (Z.ltb_ge (Z.of_nat cap) _)) in Hst by lia. rewrite (proj2 (Z.eqb_neq _ _)) in Hst by lia. injection Hst as <- <-. left. cbn. rewrite El. auto.
        + rewrite (proj2 (Z.leb_le _ _)) in Hst by lia. rewrite (proj2 (Z.ltb_lt _ _)) in Hst by lia. cbn [andb] in Hst. injection Hst as <- <-. left. cbn. rewrite El. auto.
      - destruct (q_locks s !! x) as [[]|]; try discriminate; injection Hst as <- <-; left; cbn; rewrite ?El; auto.
      - destruct (q_occ s !! x) as [b|]; try discriminate; injection Hst as <- <-; left; cbn; rewrite ?El; auto.
      - injection Hst as <- <-; left; cbn; rewrite ?El; auto.
      - injection Hst as <- <-; left; cbn; rewrite ?El; auto.
      - injection Hst as <- <-; left; cbn; rewrite ?El; auto.
      - destruct (q_data s !! x) as [[y|]|]; try discriminate; injection Hst as <- <-; left; cbn; rewrite ?El; auto.
      - injection Hst as <- <-; left; cbn; rewrite ?El; auto.
      - destruct r as [r|]; injection Hst as <- <-; [right|left; cbn; rewrite ?El; auto].
        cbn in Hok. destruct Hok as (_ & _ & Hok). destruct r as [z|z| |]; [|unfold pushing in Hok; rewrite Ep in Hok; discriminate|contradiction..].
        destruct Hok as (k & rest & E0). rewrite Ep in E0. injection E0 as _ <- _. reflexivity. }
    assert (Hno : OutOfBounds ∉ q_log q').
    { destruct HL as [[_ H0]|H0]; rewrite H0; [intros H; inversion H|]. cbn. rewrite El. intros H. apply elem_of_list_singleton in H. discriminate. }
    assert (Hvc : forall op, op ∈ q_prog q -> vector_call op) by (rewrite Ep; intros op H; apply elem_of_list_singleton in H as ->; exact Logic.I).
    destruct (bal_step cap [] (Nat.le_0_l cap) [] ltac:(intros ? ? H; inversion H) s i q s' q' Hok Hvc Hst Hno) as (_ & Hb & _).
    destruct HL as [[H1 H2]|H0]; [left; auto|]. subst q'. right. split; [cbn; rewrite Ep; reflexivity|].
    assert (Elog : q_log (finish q (Pushed (Z.of_nat p))) = [Pushed (Z.of_nat p)]) by (cbn; rewrite El; reflexivity).
    assert (Hlt : (i < length qs)%nat) by (eapply lookup_lt_Some; exact Hi).
    split.
    - pose proof (inv_reset cap _ _ _ i (finish q (Pushed (Z.of_nat p))) [] I' (list_lookup_insert _ _ _ Hlt) eq_refl ltac:(intros op H; inversion H)) as J.
      rewrite list_insert_insert in J. eapply inv_ext; [|exact J]. intros w. cbn beta. rewrite Elog. change (pushed_by [Pushed (Z.of_nat p)]) with [Z.of_nat p]. change (popped_by [Pushed (Z.of_nat p)]) with (@nil Z). cbn [fmap list_fmap sumZ]. lia.
    - rewrite Hb. unfold bal at 1. rewrite Elog. change (pushed_by [Pushed (Z.of_nat p)]) with [Z.of_nat p]. change (popped_by [Pushed (Z.of_nat p)]) with (@nil Z). cbn. lia.
  Qed.
  Lemma bal_push q p : q_prog q = [QPush KPushBack (Z.of_nat p)] -> q_log q = [] -> bal q = if claimed q then 1 else 0.
  Proof. intros Ep El. unfold bal, pushing. rewrite Ep, El. change (pushed_by (T:=Z) []) with (@nil Z). change (popped_by (T:=Z) []) with (@nil Z). cbn. destruct (claimed q); reflexivity. Qed.
  Lemma bal_fresh : bal (fresh_call []) = 0.
  Proof. reflexivity. Qed.
End vpush.

Section einv.
  Context {K V : Type} (kf : V -> K) (hash : K -> Z) (keq : K -> K -> bool) (bc E : nat).
  Hypothesis keq_refl : forall a, keq a a = true.
  Hypothesis keq_sym : forall a b, keq a b = true -> keq b a = true.
  Hypothesis keq_trans : forall a b c, keq a b = true -> keq b c = true -> keq a c = true.
  Hypothesis Hhash : forall a b, keq a b = true -> hash a = hash b.
  Hypothesis Hbc : (0 < bc)%nat.
  Hypothesis HE : (0 < E)%nat.
  Hypothesis Hmax : Z.of_nat (bc + E) <= INT_MAX.
  Notation n := (bc + E)%nat.
  Notation bkt := (bkt hash bc).
  Implicit Types (s : cshared V) (t : cthread K V) (ls : list (cthread K V)) (F Gn : list nat).

  (** *** the container before the calls *)
  Context (M0 : list V) (s0 : cshared V) (G0 : list (option V * list (nat * V))) (F0 : list nat).
  Hypothesis I0 : cinv (K:=K) kf hash keq bc E M0 s0 [] G0 F0.
  Definition st0 (p : nat) (v : V) : Prop := stored_at s0 p v.
  (** the entries of bucket [b], in the order of the list *)
  Definition nodes (b : nat) : list nat := match G0 !! b with Some g => b :: gpos g | None => [b] end.

  Let f_bucket := cf_bucket kf hash keq bc E keq_refl keq_sym keq_trans Hhash Hbc HE Hmax M0 s0 [] G0 F0 I0.
  Let f_chain_nodup := cf_chain_nodup kf hash keq bc E keq_refl keq_sym keq_trans Hhash Hbc HE Hmax M0 s0 [] G0 F0 I0.
  Let f_chain_range := cf_chain_range kf hash keq bc E keq_refl keq_sym keq_trans Hhash Hbc HE Hmax M0 s0 [] G0 F0 I0.
  Let f_head_range := cf_head_range kf hash keq bc E keq_refl keq_sym keq_trans Hhash Hbc HE Hmax M0 s0 [] G0 F0 I0.
  Let f_node_other := cf_node_other kf hash keq bc E keq_refl keq_sym keq_trans Hhash Hbc HE Hmax M0 s0 [] G0 F0 I0.
  Let f_node_range := cf_node_range kf hash keq bc E keq_refl keq_sym keq_trans Hhash Hbc HE Hmax M0 s0 [] G0 F0 I0.
  Lemma nodes_bucket b : (b < bc)%nat -> exists g, G0 !! b = Some g /\ nodes b = b :: gpos g.
  Proof using All. intros H. destruct (f_bucket b H) as [g Hg]. exists g. unfold nodes. rewrite Hg. auto. Qed.
  Lemma nodes_head b : nodes b !! 0%nat = Some b.
  Proof. unfold nodes. destruct (G0 !! b); reflexivity. Qed.
  Lemma nodes_nodup b : (b < bc)%nat -> NoDup (nodes b).
  Proof using All. intros H. destruct (nodes_bucket b H) as (g & Hg & ->). exact (f_chain_nodup b g Hg). Qed.
  Lemma nodes_range b x : (b < bc)%nat -> x ∈ nodes b -> (x < n)%nat.
  Proof using All. intros H. destruct (nodes_bucket b H) as (g & Hg & ->). exact (f_node_range b g x Hg). Qed.
  Lemma nodes_other b b' x : (b < bc)%nat -> (b' < bc)%nat -> x ∈ nodes b -> x ∈ nodes b' -> b = b'.
  Proof using All.
    intros H H' Hx Hx'. destruct (nodes_bucket b H) as (g & Hg & Eg). destruct (nodes_bucket b' H') as (g' & Hg' & Eg'). rewrite Eg in Hx. rewrite Eg' in Hx'.
    destruct (decide (b = b')) as [|Hne]; [assumption|]. destruct (f_node_other b b' g g' x Hg Hg' Hne Hx Hx').
  Qed.
  Lemma nodes_excess b x : (b < bc)%nat -> x ∈ nodes b -> x <> b -> x ∈ G0 ≫= gpos /\ (bc <= x)%nat /\ exists v, st0 x v.
  Proof using All.
    intros H Hx Hne. destruct (nodes_bucket b H) as (g & Hg & Eg). rewrite Eg in Hx. apply elem_of_cons in Hx as [Hx|Hx]; [congruence|].
    split; [exact (cf_in G0 b g x Hg Hx)|]. split; [apply (f_chain_range b g x Hg Hx)|].
    unfold gpos in Hx. apply elem_of_list_fmap in Hx as ([y v] & -> & Hx). exists v. exact (ci_chain _ _ _ _ _ _ _ _ _ _ I0 b g y v Hg Hx).
  Qed.
  Lemma excess_node x : x ∈ G0 ≫= gpos -> exists b, (b < bc)%nat /\ x ∈ nodes b /\ x <> b /\ (bc <= x < n)%nat.
  Proof using All.
    intros Hx. apply elem_of_list_bind in Hx as (g & Hx & Hg). apply elem_of_list_lookup in Hg as [b Hg].
    pose proof (f_head_range b g Hg). pose proof (f_chain_range b g x Hg Hx). exists b. unfold nodes. rewrite Hg. repeat split; try lia. right. exact Hx.
  Qed.
  Lemma st0_node p v : st0 p v -> p ∈ nodes (bkt (kf v)).
  Proof using All.
    intros H. destruct (occupied_where kf hash keq bc E keq_refl keq_sym keq_trans Hhash Hbc HE Hmax M0 s0 [] G0 F0 p I0 (proj2 H)) as (v' & Hv' & [Hin|(t & _ & _ & Ht & _)]); [|inversion Ht].
    assert (v' = v) as -> by (destruct H, Hv'; congruence). destruct Hin as (b & g & Hg & Hp).
    rewrite (ci_bkt _ _ _ _ _ _ _ _ _ _ I0 b g v Hg (in_list_val _ _ _ _ _ Hg Hp)). unfold nodes. rewrite Hg. destruct Hp as [[-> _]|Hp]; [left|right].
    unfold gpos. apply elem_of_list_fmap. exists (p, v). auto.
  Qed.
  Lemma st0_inj p q v w : st0 p v -> st0 q w -> keq (kf v) (kf w) = true -> p = q.
  Proof using All. exact (no_duplicates kf hash keq bc E keq_refl keq_sym keq_trans Hhash Hbc HE Hmax M0 s0 [] G0 F0 p q v w I0). Qed.
  Lemma st0_fun p v w : st0 p v -> st0 p w -> v = w.
  Proof. intros [H _] [H' _]. congruence. Qed.
  Lemma bkt_eq a b : keq a b = true -> bkt a = bkt b.
  Proof using Hhash. intros H. unfold UnorderedProofs.bkt. rewrite (Hhash _ _ H). reflexivity. Qed.
  Lemma bkt_range k : (bkt k < bc)%nat.
  Proof using All. apply (bucket_of_bkt hash keq bc E keq_refl keq_sym keq_trans Hhash Hbc HE Hmax k). Qed.

  (** *** what a thread owns *)
  Definition fctx_locks (c : fctx) : list nat := match c with FErB p => [p] | FErL p q => [p; q] | _ => [] end.
  Definition pctx_locks (c : pctx) : list nat := match c with PEr1 _ => [] | PEr2 p q _ => [p; q] end.
  Definition locks_of (pc : upc) : list nat :=
    match pc with
    | FOcc c _ | FVal c _ | FOff c _ | FAdd c _ => fctx_locks c
    | POff c _ _ | PAdd c _ _ => pctx_locks c
    | XResetB p | XCntB p | XDesB p | XUnlB p _ => [p]
    | XLock2 p _ | XBack p => [p]
    | XTest p q | XAdd1 p q | XAdd2 p q _ | XPut p q _ | XReset p q | XCnt p q | XDes p q | XPush p q _ | XUnl1 p q _ => [p; q]
    | XUnl2 q _ => [q]
    | _ => []
    end.
  Definition eholds (p : nat) t : Z := sumZ (at_ p) (locks_of (c_pc t)).
  Definition ehand t : list nat := match c_pc t with XReset p _ | XCnt p _ | XDes p _ | XPush p _ _ => [p] | _ => [] end.
  Definition resetting (x : nat) t : Z := match c_pc t with XReset p _ => at_ x p | _ => 0 end.
  Definition epend t : Z := match c_pc t with XCntB _ | XCnt _ _ => 1 | _ => 0 end.
  Definition eproj t : qthread Z := match c_pc t with XPush _ _ x => x | _ => fresh_call [] end.
  (** the running erase has taken its value out *)
  Definition past (pc : upc) : bool :=
    match pc with XCntB _ | XDesB _ | XUnlB _ true | XCnt _ _ | XDes _ _ | XPush _ _ _ | XUnl1 _ _ true | XUnl2 _ true => true | _ => false end.
  Definition lsucc (k : K) (log : list (cop K V * cret)) : Z := sumZ (fun x => match x with (CErase k', RErased true) => if keq k' k then 1 else 0 | _ => 0 end) log.
  Definition rsucc (k : K) t : Z := match c_prog t with CErase k' :: _ => if keq k' k && past (c_pc t) then 1 else 0 | _ => 0 end.
  Definition succ (k : K) t : Z := lsucc k (c_log t) + rsucc k t.

  (** *** the lists *)
  Notation nxt := (leads_to (V:=V)).
  (** the offset of the entry [i] at position [a] of the list of bucket [b] leads over unlinked entries only *)
  Definition nextok s Gn (b a i : nat) : Prop := exists o, c_off s !! i = Some o /\
    ((o = 0 /\ forall a' x, (a < a')%nat -> nodes b !! a' = Some x -> x ∈ Gn) \/
     exists a' j, (a < a')%nat /\ nodes b !! a' = Some j /\ Z.of_nat i + o = Z.of_nat j /\ forall a'' x, (a < a'' < a')%nat -> nodes b !! a'' = Some x -> x ∈ Gn).

  (** *** what a thread knows *)
  Definition hit s (k : K) (p : nat) : Prop := lk (c_occ s) p = true /\ exists v, st0 p v /\ keq (kf v) k = true.
  Definition cleared s Gn (k : K) (x : nat) : Prop := x ∈ Gn \/ lk (c_occ s) x = false \/ forall v, st0 x v -> keq (kf v) k = false.
  Definition cleared_to s Gn (b : nat) (k : K) (a : nat) : Prop := forall a' x, (a' < a)%nat -> nodes b !! a' = Some x -> cleared s Gn k x.
  Definition base (er : bool) (b p q : nat) : Prop := er = true /\ p ∈ nodes b /\ p <> b /\ q ∈ nodes b /\ p <> q.
  Definition ctx (er : bool) (b : nat) (c : fctx) : Prop :=
    match c with
    | FUser => er = false
    | FEr1 => er = true
    | FErB p => er = true /\ p = b
    | FErL p q => base er b p q
    | _ => False
    end.
  Definition held (c : fctx) (i : nat) : Prop := match c with FErB p => i = p | FErL p _ => i = p | _ => False end.
  Definition ready s Gn (er : bool) (b : nat) (k : K) (p q : nat) : Prop := base er b p q /\ hit s k p /\ q ∉ Gn /\ nxt s q p.
  Definition kn s Gn (er : bool) (b : nat) (k : K) (pc : upc) : Prop :=
    match pc with
    | UIdle => True
    | FOcc c i => ctx er b c /\ exists a, nodes b !! a = Some i /\ cleared_to s Gn b k a
    | FVal c i => ctx er b c /\ (exists v, st0 i v) /\ (held c i -> lk (c_occ s) i = true) /\ exists a, nodes b !! a = Some i /\ cleared_to s Gn b k a
    | FOff c i | FAdd c i => ctx er b c /\ exists a, nodes b !! a = Some i /\ cleared_to s Gn b k (S a)
    | POff (PEr1 p) i prev | PAdd (PEr1 p) i prev => er = true /\ p ∈ nodes b /\ p <> b /\ prev = i /\ i ∈ nodes b
    | POff (PEr2 p q same) i prev | PAdd (PEr2 p q same) i prev => base er b p q /\ prev = i /\ exists a, nodes b !! a = Some i /\
        (same = true -> hit s k p /\ exists a', (a < a')%nat /\ nodes b !! a' = Some p) /\ (q ∈ Gn -> ~ rtc (nxt s) i q)
    | XLockB p => er = true /\ p = b
    | XResetB p => er = true /\ p = b /\ hit s k p
    | XUnlB p _ => er = true /\ p = b
    | XCntB p | XDesB p => er = true /\ p = b /\ exists v, st0 p v
    | XLock1 p q | XLock2 p q => er = true /\ p ∈ nodes b /\ p <> b /\ q ∈ nodes b
    | XBack p => er = true /\ p ∈ nodes b
    | XTest p q => ready s Gn er b k p q
    | XAdd1 p q => ready s Gn er b k p q /\ c_off s !! p <> Some 0
    | XAdd2 p q o => ready s Gn er b k p q /\ c_off s !! p = Some o /\ o <> 0
    | XPut p q o => ready s Gn er b k p q /\ exists po qo, c_off s !! p = Some po /\ c_off s !! q = Some qo /\ o = if po =? 0 then 0 else qo + po
    | XReset p q => base er b p q /\ p ∈ Gn /\ exists v, st0 p v /\ keq (kf v) k = true
    | XCnt p q => base er b p q /\ p ∈ Gn
    | XDes p q => base er b p q /\ p ∈ Gn /\ exists v, st0 p v
    | XPush p q x => base er b p q /\ p ∈ Gn /\ q_prog x = [QPush KPushBack (Z.of_nat p)] /\ q_log x = []
    | XUnl1 p q _ => base er b p q
    | XUnl2 q _ => er = true /\ q ∈ nodes b
    | _ => False
    end.
  Definition is_er (op : cop K V) : bool := match op with CErase _ => true | _ => false end.
  Definition ecall_ok (op : cop K V) : Prop := match op with CInsert _ => False | _ => True end.
  Definition tk s Gn t : Prop :=
    (forall op, op ∈ c_prog t -> ecall_ok op) /\
    match c_prog t with [] => c_pc t = UIdle | op :: _ => kn s Gn (is_er op) (bkt (op_key kf op)) (op_key kf op) (c_pc t) end.

  Record einv s ls Gn F : Prop := {
    ei_val : c_values s = c_values s0;
    ei_lf : length (c_off s) = n;
    ei_lo : length (c_occ s) = n;
    ei_ll : length (c_locks s) = n;
    ei_gn : forall x, x ∈ Gn -> x ∈ G0 ≫= gpos;
    ei_gnd : NoDup Gn;
    ei_perm : Gn ++ F0 ≡ₚ (ls ≫= ehand) ++ F;
    ei_occ : forall p, lk (c_occ s) p = true -> exists v, st0 p v;
    ei_occx : forall x, x ∈ G0 ≫= gpos -> Z.b2z (lk (c_occ s) x) = (if decide (x ∈ Gn) then 0 else 1) + sumZ (resetting x) ls;
    ei_off : forall p o, c_off s !! p = Some o -> 0 <= Z.of_nat p + o < Z.of_nat n;
    ei_next : forall b a i, (b < bc)%nat -> nodes b !! a = Some i -> nextok s Gn b a i;
    ei_live : forall b x, (b < bc)%nat -> rtc (nxt s) b x -> x ∉ Gn;
    ei_lock : forall p, (p < n)%nat -> Z.b2z (lk (c_locks s) p) = sumZ (eholds p) ls;
    ei_count : c_count s = sumZ Z.b2z (c_occ s) + sumZ epend ls;
    ei_vec : inv (T:=Z) (C:=Z) E vm (fun _ => True) (fun w => sumZ w (Z.of_nat <$> F)) (c_ex s) (eproj <$> ls);
    ei_qc : q_c (c_ex s) = Z.of_nat (length F) + sumZ bal (eproj <$> ls);
    ei_succ : forall p v, st0 p v -> Z.b2z (lk (c_occ s) p) + sumZ (succ (kf v)) ls = 1;
    ei_log : forall t k, t ∈ ls -> (CErase k, RErased true) ∈ c_log t -> exists p v, st0 p v /\ keq (kf v) k = true;
    ei_run : forall t k rest, t ∈ ls -> c_prog t = CErase k :: rest -> past (c_pc t) = true -> exists p v, st0 p v /\ keq (kf v) k = true;
    ei_tk : forall t, t ∈ ls -> tk s Gn t
  }.

  (** *** how the knowledge of the other threads survives *)
  Definition mono_e (L : list nat) s Gn s' Gn' : Prop :=
    (forall x, lk (c_occ s') x = true -> lk (c_occ s) x = true) /\ (forall x, x ∈ Gn -> x ∈ Gn') /\ (forall x y, nxt s' x y -> rtc (nxt s) x y) /\
    forall x, x ∈ L -> lk (c_occ s') x = lk (c_occ s) x /\ c_off s' !! x = c_off s !! x /\ (x ∈ Gn' -> x ∈ Gn).
  Lemma mono_same L s Gn s' : c_occ s' = c_occ s -> c_off s' = c_off s -> mono_e L s Gn s' Gn.
  Proof.
    intros Eo Ef. unfold mono_e, leads_to. rewrite Eo, Ef. split; [auto|]. split; [auto|]. split; [|auto]. intros x y H. apply rtc_once. exact H.
  Qed.
  Lemma mono_rtc L s Gn s' Gn' x y : mono_e L s Gn s' Gn' -> rtc (nxt s') x y -> rtc (nxt s) x y.
  Proof. intros (_ & _ & H & _) R. induction R as [x|x y z H1 _ IH]; [apply rtc_refl|]. etransitivity; [apply H; exact H1|exact IH]. Qed.
  Lemma kn_stable s Gn s' Gn' er b k pc : mono_e (locks_of pc) s Gn s' Gn' -> kn s Gn er b k pc -> kn s' Gn' er b k pc.
  Proof.
    intros HM. pose proof HM as (M1 & M2 & M3 & M4).
    assert (Hhit : forall p, p ∈ locks_of pc -> hit s k p -> hit s' k p) by (intros p Hp [H1 H2]; split; [rewrite (proj1 (M4 p Hp)); exact H1|exact H2]).
    assert (Hcl : forall a, cleared_to s Gn b k a -> cleared_to s' Gn' b k a).
    { intros a H a' x H1 H2. destruct (H a' x H1 H2) as [H3|[H3|H3]]; [left; auto|right; left|right; right; exact H3].
      destruct (lk (c_occ s') x) eqn:E0; [|reflexivity]. rewrite (M1 x E0) in H3. discriminate. }
    assert (Hnx : forall p q, q ∈ locks_of pc -> nxt s q p -> nxt s' q p). { intros p q Hq (o & H1 & H2). exists o. rewrite (proj1 (proj2 (M4 q Hq))). auto. }
    assert (Hrd : forall p q, p ∈ locks_of pc -> q ∈ locks_of pc -> ready s Gn er b k p q -> ready s' Gn' er b k p q).
    { intros p q Hp Hq (H1 & H2 & H3 & H4). split; [exact H1|]. split; [auto|]. split; [|auto]. intros Hc. apply H3. apply (M4 q Hq). exact Hc. }
    assert (Hof : forall p, p ∈ locks_of pc -> c_off s' !! p = c_off s !! p) by (intros p Hp; apply (M4 p Hp)).
    assert (Hrt : forall i q, q ∈ locks_of pc -> (q ∈ Gn -> ~ rtc (nxt s) i q) -> q ∈ Gn' -> ~ rtc (nxt s') i q).
    { intros i q Hq H1 H2 H3. apply H1; [apply (M4 q Hq); exact H2|]. eapply mono_rtc; eauto. }
    destruct pc; cbn [kn]; try tauto.
    - intros (H1 & a & H2 & H3). eauto.
    - intros (H1 & H2 & H3 & a & H4 & H5). split; [exact H1|]. split; [exact H2|]. split; [|eauto]. intros Hh.
      assert (Hi : i ∈ locks_of (FVal c i)) by (cbn; destruct c; cbn in Hh |- *; try contradiction; subst; left). rewrite (proj1 (M4 i Hi)). auto.
    - intros (H1 & a & H2 & H3). eauto.
    - intros (H1 & a & H2 & H3). eauto.
    - destruct c as [p|p q same]; [tauto|]. intros (H1 & H2 & a & H3 & H4 & H5). split; [exact H1|]. split; [exact H2|]. exists a. split; [exact H3|]. split.
      + intros Hs. destruct (H4 Hs) as [H6 H7]. split; [apply Hhit; [left|exact H6]|exact H7].
      + apply Hrt; [right; left|exact H5].
    - destruct c as [p|p q same]; [tauto|]. intros (H1 & H2 & a & H3 & H4 & H5). split; [exact H1|]. split; [exact H2|]. exists a. split; [exact H3|]. split.
      + intros Hs. destruct (H4 Hs) as [H6 H7]. split; [apply Hhit; [left|exact H6]|exact H7].
      + apply Hrt; [right; left|exact H5].
    - intros (H1 & H2 & H3). split; [exact H1|]. split; [exact H2|]. apply Hhit; [left|exact H3].
    - apply Hrd; [left|right; left].
    - intros [H1 H2]. split; [apply Hrd; [left|right; left|exact H1]|]. rewrite Hof by left. exact H2.
    - intros [H1 H2]. split; [apply Hrd; [left|right; left|exact H1]|]. rewrite Hof by left. exact H2.
    - intros [H1 (po & qo & H2 & H3 & H4)]. split; [apply Hrd; [left|right; left|exact H1]|]. exists po, qo. rewrite !Hof by (left || (right; left)). auto.
    - intros (H1 & H2 & H3). auto.
    - intros (H1 & H2). auto.
    - intros (H1 & H2 & H3). auto.
    - intros (H1 & H2 & H3). auto.
  Qed.
  Lemma tk_stable s Gn s' Gn' t : mono_e (locks_of (c_pc t)) s Gn s' Gn' -> tk s Gn t -> tk s' Gn' t.
  Proof. intros HM [H1 H2]. split; [exact H1|]. destruct (c_prog t); [exact H2|]. eapply kn_stable; eauto. Qed.

  (** *** one step of thread i, componentwise *)
  Lemma eupd s ls Gn F i t s' t' Gn' F' : einv s ls Gn F -> ls !! i = Some t ->
    c_values s' = c_values s -> (length (c_off s') = n /\ length (c_occ s') = n /\ length (c_locks s') = n) ->
    (forall x, x ∈ Gn' -> x ∈ G0 ≫= gpos) -> NoDup Gn' -> (Gn' ++ ehand t ++ F ≡ₚ Gn ++ ehand t' ++ F') ->
    (forall p, lk (c_occ s') p = true -> lk (c_occ s) p = true) ->
    (forall x, x ∈ G0 ≫= gpos -> Z.b2z (lk (c_occ s') x) - Z.b2z (lk (c_occ s) x) = (if decide (x ∈ Gn') then 0 else 1) - (if decide (x ∈ Gn) then 0 else 1) + resetting x t' - resetting x t) ->
    (forall p o, c_off s' !! p = Some o -> 0 <= Z.of_nat p + o < Z.of_nat n) ->
    (forall b a x, (b < bc)%nat -> nodes b !! a = Some x -> nextok s' Gn' b a x) ->
    (forall b x, (b < bc)%nat -> rtc (nxt s') b x -> x ∉ Gn') ->
    (forall p, (p < n)%nat -> Z.b2z (lk (c_locks s') p) - Z.b2z (lk (c_locks s) p) = eholds p t' - eholds p t) ->
    (c_count s' - c_count s = sumZ Z.b2z (c_occ s') - sumZ Z.b2z (c_occ s) + epend t' - epend t) ->
    inv (T:=Z) (C:=Z) E vm (fun _ => True) (fun w => sumZ w (Z.of_nat <$> F')) (c_ex s') (<[i := eproj t']> (eproj <$> ls)) ->
    (q_c (c_ex s') - q_c (c_ex s) = Z.of_nat (length F') - Z.of_nat (length F) + bal (eproj t') - bal (eproj t)) ->
    (forall p v, st0 p v -> Z.b2z (lk (c_occ s') p) - Z.b2z (lk (c_occ s) p) + succ (kf v) t' - succ (kf v) t = 0) ->
    (forall k, (CErase k, RErased true) ∈ c_log t' -> (CErase k, RErased true) ∈ c_log t \/ exists p v, st0 p v /\ keq (kf v) k = true) ->
    (forall k rest, c_prog t' = CErase k :: rest -> past (c_pc t') = true -> (c_prog t' = c_prog t /\ past (c_pc t) = true) \/ exists p v, st0 p v /\ keq (kf v) k = true) ->
    tk s' Gn' t' ->
    (forall j tj, j <> i -> ls !! j = Some tj -> mono_e (locks_of (c_pc tj)) s Gn s' Gn') ->
    einv s' (<[i := t']> ls) Gn' F'.
  Proof using All.
    intros I Hi Ev (L1 & L2 & L3) Hg Hnd Hperm Hocc Hoccx Hoff Hnext Hlive Hlock Hcount Hvec Hqc Hsucc Hlog Hrun Htk Hmono.
    assert (Hin : t ∈ ls) by (eapply elem_of_list_lookup_2; exact Hi).
    assert (Hel : forall tj, tj ∈ <[i := t']> ls -> tj = t' \/ exists j, j <> i /\ ls !! j = Some tj).
    { intros tj Ht. apply elem_of_list_lookup in Ht as [j Hj]. apply list_lookup_insert_Some in Hj as [(_ & <- & _)|[Hne Hj]]; [left; reflexivity|]. right. exists j. split; [congruence|exact Hj]. }
    destruct (bind_split ehand ls i t Hi) as (hr & EH1 & EH2 & _).
    split; auto.
    - rewrite Ev. apply (ei_val _ _ _ _ I).
    - rewrite EH2. pose proof (ei_perm _ _ _ _ I) as HP. rewrite EH1 in HP.
      apply sumZ_perm. intros w. apply (perm_sum _ _ w) in HP. apply (perm_sum _ _ w) in Hperm. rewrite !sumZ_app in *. lia.
    - intros p Hp. apply (ei_occ _ _ _ _ I). auto.
    - intros x Hx. rewrite (sumZ_insert _ _ _ _ _ Hi). specialize (Hoccx x Hx). pose proof (ei_occx _ _ _ _ I x Hx). lia.
    - intros p Hp. rewrite (sumZ_insert _ _ _ _ _ Hi). specialize (Hlock p Hp). pose proof (ei_lock _ _ _ _ I p Hp). lia.
    - rewrite (sumZ_insert _ _ _ _ _ Hi). pose proof (ei_count _ _ _ _ I). lia.
    - rewrite list_fmap_insert. exact Hvec.
    - rewrite list_fmap_insert. rewrite (sumZ_insert _ _ _ (eproj t)) by (rewrite list_lookup_fmap, Hi; reflexivity). pose proof (ei_qc _ _ _ _ I). lia.
    - intros p v Hp. rewrite (sumZ_insert _ _ _ _ _ Hi). specialize (Hsucc p v Hp). pose proof (ei_succ _ _ _ _ I p v Hp). lia.
    - intros tj k Ht Hk. destruct (Hel tj Ht) as [-> |(j & Hne & Hj)]; [destruct (Hlog k Hk) as [H|H]; [|exact H]|].
      + exact (ei_log _ _ _ _ I t k Hin H).
      + exact (ei_log _ _ _ _ I tj k (elem_of_list_lookup_2 _ _ _ Hj) Hk).
    - intros tj k rest Ht Hp Hk. destruct (Hel tj Ht) as [-> |(j & Hne & Hj)]; [destruct (Hrun k rest Hp Hk) as [[H1 H2]|H]; [|exact H]|].
      + eapply (ei_run _ _ _ _ I); [exact Hin|rewrite <- H1; exact Hp|exact H2].
      + eapply (ei_run _ _ _ _ I); [eapply elem_of_list_lookup_2; exact Hj|exact Hp|exact Hk].
    - intros tj Ht. destruct (Hel tj Ht) as [-> |(j & Hne & Hj)]; [auto|].
      eapply tk_stable; [eapply Hmono; eauto|]. apply (ei_tk _ _ _ _ I). eapply elem_of_list_lookup_2; exact Hj.
  Qed.

  Lemma evec_same s ls Gn F i t t' : einv s ls Gn F -> ls !! i = Some t -> eproj t' = eproj t ->
    inv (T:=Z) (C:=Z) E vm (fun _ => True) (fun w => sumZ w (Z.of_nat <$> F)) (c_ex s) (<[i := eproj t']> (eproj <$> ls)).
  Proof using All.
    intros I Hi Hp. rewrite list_insert_id; [apply (ei_vec _ _ _ _ I)|]. rewrite list_lookup_fmap, Hi, Hp. reflexivity.
  Qed.
  (** steps that change no offset, occupancy or position list *)
  Lemma eupd_quiet s ls Gn F i t s' t' : einv s ls Gn F -> ls !! i = Some t ->
    c_values s' = c_values s -> c_occ s' = c_occ s -> c_off s' = c_off s -> c_ex s' = c_ex s -> length (c_locks s') = n ->
    ehand t' = ehand t -> (forall x, resetting x t' = resetting x t) -> eproj t' = eproj t ->
    (forall p, (p < n)%nat -> Z.b2z (lk (c_locks s') p) - Z.b2z (lk (c_locks s) p) = eholds p t' - eholds p t) ->
    c_count s' - c_count s = epend t' - epend t ->
    (forall k, succ k t' = succ k t) ->
    (forall k, (CErase k, RErased true) ∈ c_log t' -> (CErase k, RErased true) ∈ c_log t \/ exists p v, st0 p v /\ keq (kf v) k = true) ->
    (forall k rest, c_prog t' = CErase k :: rest -> past (c_pc t') = true -> (c_prog t' = c_prog t /\ past (c_pc t) = true) \/ exists p v, st0 p v /\ keq (kf v) k = true) ->
    tk s Gn t' -> einv s' (<[i := t']> ls) Gn F.
  Proof using All.
    intros I Hi Ev Eo Ef Ex Ll Hh Hr Hp Hlock Hcount Hs Hlog Hrun Htk.
    eapply (eupd s ls Gn F i t); try eassumption; rewrite ?Eo, ?Ef, ?Ex, ?Hh, ?Hp; auto; try solve [apply I].
    - split; [apply (ei_lf _ _ _ _ I)|]. split; [apply (ei_lo _ _ _ _ I)|exact Ll].
    - intros x Hx. rewrite Hr. lia.
    - intros b a x Hb Hx. destruct (ei_next _ _ _ _ I b a x Hb Hx) as (o & Ho & H). exists o. rewrite Ef. auto.
    - intros b x Hb Hx. apply (ei_live _ _ _ _ I b x Hb). eapply (mono_rtc [] s Gn s' Gn); [apply mono_same; assumption|exact Hx].
    - lia.
    - pose proof (evec_same s ls Gn F i t t' I Hi Hp) as H. rewrite Hp in H. exact H.
    - lia.
    - intros p v _. rewrite Hs. lia.
    - eapply tk_stable; [apply mono_same; eassumption|exact Htk].
    - intros j tj _ _. apply mono_same; assumption.
  Qed.
  (** no access that changes anything *)
  Lemma eupd_local s ls Gn F i t t' : einv s ls Gn F -> ls !! i = Some t ->
    ehand t' = ehand t -> (forall x, resetting x t' = resetting x t) -> eproj t' = eproj t -> (forall p, eholds p t' = eholds p t) -> epend t' = epend t ->
    (forall k, succ k t' = succ k t) ->
    (forall k, (CErase k, RErased true) ∈ c_log t' -> (CErase k, RErased true) ∈ c_log t \/ exists p v, st0 p v /\ keq (kf v) k = true) ->
    (forall k rest, c_prog t' = CErase k :: rest -> past (c_pc t') = true -> (c_prog t' = c_prog t /\ past (c_pc t) = true) \/ exists p v, st0 p v /\ keq (kf v) k = true) ->
    tk s Gn t' -> einv s (<[i := t']> ls) Gn F.
  Proof using All.
    intros I Hi Hh Hr Hp Hl He Hs Hlog Hrun Htk. eapply eupd_quiet; eauto.
    - apply (ei_ll _ _ _ _ I).
    - intros p Hpp. rewrite Hl. lia.
    - lia.
  Qed.
  Lemma eupd_lock s ls Gn F i t t' p b : einv s ls Gn F -> ls !! i = Some t -> (p < n)%nat -> lk (c_locks s) p = negb b ->
    (forall x, eholds x t' = eholds x t + (if b then at_ x p else - at_ x p)) ->
    ehand t' = ehand t -> (forall x, resetting x t' = resetting x t) -> eproj t' = eproj t -> epend t' = epend t ->
    (forall k, succ k t' = succ k t) ->
    (forall k, (CErase k, RErased true) ∈ c_log t' -> (CErase k, RErased true) ∈ c_log t \/ exists p v, st0 p v /\ keq (kf v) k = true) ->
    (forall k rest, c_prog t' = CErase k :: rest -> past (c_pc t') = true -> (c_prog t' = c_prog t /\ past (c_pc t) = true) \/ exists p v, st0 p v /\ keq (kf v) k = true) ->
    tk s Gn t' -> einv (put_lock s p b) (<[i := t']> ls) Gn F.
  Proof using All.
    intros I Hi Hp Hb Hl Hh Hr Hpr He Hs Hlog Hrun Htk. eapply eupd_quiet; eauto; cbn [put_lock c_locks c_values c_occ c_off c_count c_ex].
    - rewrite insert_length. apply (ei_ll _ _ _ _ I).
    - intros q Hq. rewrite lk_insert by (rewrite (ei_ll _ _ _ _ I); exact Hp). rewrite Hl. unfold at_. destruct (decide (q = p)) as [-> |Hne]; [rewrite Hb; destruct b; cbn; lia|destruct b; lia].
    - lia.
  Qed.

  (** *** facts about a state *)
  Section efacts.
    Context (s : cshared V) (ls : list (cthread K V)) (Gn F : list nat) (I : einv s ls Gn F).
    Lemma ef_head_live b : (b < bc)%nat -> b ∉ Gn.
    Proof using All. intros H. apply (ei_live _ _ _ _ I b b H). apply rtc_refl. Qed.
    Lemma ef_idx b a a' x : (b < bc)%nat -> nodes b !! a = Some x -> nodes b !! a' = Some x -> a = a'.
    Proof using All. intros H H1 H2. eapply NoDup_lookup; [apply (nodes_nodup b H)|eassumption..]. Qed.
    Lemma ef_nxt b a i x : (b < bc)%nat -> nodes b !! a = Some i -> nxt s i x ->
      exists a', (a < a')%nat /\ nodes b !! a' = Some x /\ forall a'' y, (a < a'' < a')%nat -> nodes b !! a'' = Some y -> y ∈ Gn.
    Proof using All.
      intros Hb Ha (o & Ho & Hne & Hx). destruct (ei_next _ _ _ _ I b a i Hb Ha) as (o' & Ho' & [[H _]|(a' & j & H1 & H2 & H3 & H4)]).
      - rewrite Ho in Ho'. injection Ho' as <-. contradiction.
      - rewrite Ho in Ho'. injection Ho' as <-. assert (j = x) as -> by lia. eauto.
    Qed.
    Lemma ef_rtc b a i x : (b < bc)%nat -> nodes b !! a = Some i -> rtc (nxt s) i x -> exists a', (a <= a')%nat /\ nodes b !! a' = Some x.
    Proof using All.
      intros Hb Ha R. revert a Ha. induction R as [i|i j x H _ IH]; intros a Ha; [eauto|].
      destruct (ef_nxt b a i j Hb Ha H) as (a1 & H1 & H2 & _). destruct (IH a1 H2) as (a2 & H3 & H4). exists a2. split; [lia|exact H4].
    Qed.
    (** an entry that is linked is reached from every earlier one *)
    Lemma ef_reach b a' x : (b < bc)%nat -> nodes b !! a' = Some x -> x ∉ Gn -> forall m a i, (a' - a <= m)%nat -> (a <= a')%nat -> nodes b !! a = Some i -> rtc (nxt s) i x.
    Proof using All.
      intros Hb Hx Hl. induction m as [|m IH]; intros a i Hm Hle Ha.
      - assert (a = a') as -> by lia. rewrite Hx in Ha. injection Ha as ->. apply rtc_refl.
      - destruct (decide (a = a')) as [-> |Hne]; [rewrite Hx in Ha; injection Ha as ->; apply rtc_refl|].
        destruct (ei_next _ _ _ _ I b a i Hb Ha) as (o & Ho & [[_ H]|(a1 & j & H1 & H2 & H3 & H4)]).
        + destruct Hl. apply (H a' x); [lia|exact Hx].
        + assert (a1 <= a')%nat. { destruct (decide (a1 <= a')%nat); [assumption|]. destruct Hl. apply (H4 a' x); [lia|exact Hx]. }
          eapply rtc_l; [|apply (IH a1 j); [lia|lia|exact H2]]. exists o. split; [exact Ho|]. split; [|exact H3].
          intros ->. assert (j = i) as -> by lia. pose proof (ef_idx b a a1 i Hb Ha H2). lia.
    Qed.
    Lemma ef_reach_head b x : (b < bc)%nat -> x ∈ nodes b -> x ∉ Gn -> rtc (nxt s) b x.
    Proof using All. intros Hb Hx Hl. apply elem_of_list_lookup in Hx as [a Ha]. apply (ef_reach b a x Hb Ha Hl a 0%nat b); [lia|lia|apply nodes_head]. Qed.
    Lemma at_in (p : nat) (l : list nat) : p ∈ l -> 1 <= sumZ (at_ p) l.
    Proof.
      induction l as [|x l IH]; intros H; [inversion H|]. cbn [sumZ]. pose proof (at_nonneg p x) as H0. assert (H1 : 0 <= sumZ (at_ p) l) by (apply sumZ_nonneg; intros; apply at_nonneg).
      apply elem_of_cons in H as [-> |H]; [rewrite at_same; lia|]. specialize (IH H). lia.
    Qed.
    Lemma eholds_nonneg p t : 0 <= eholds p t.
    Proof. unfold eholds. apply sumZ_nonneg. intros; apply at_nonneg. Qed.
    Lemma ef_excl i j ti tj p : (p < n)%nat -> i <> j -> ls !! i = Some ti -> ls !! j = Some tj -> p ∈ locks_of (c_pc ti) -> p ∈ locks_of (c_pc tj) -> False.
    Proof using All.
      intros Hp Hne Hi Hj Li Lj. pose proof (ei_lock _ _ _ _ I p Hp) as H.
      pose proof (sumZ_ge_two (eholds p) ls i j ti tj (fun l _ => eholds_nonneg p l) Hne Hi Hj) as H2.
      pose proof (at_in p _ Li). pose proof (at_in p _ Lj). unfold eholds at 1 2 in H2. destruct (lk (c_locks s) p); cbn in H; lia.
    Qed.
    Lemma kn_locks er b k pc p : (b < bc)%nat -> kn s Gn er b k pc -> p ∈ locks_of pc -> p ∈ nodes b.
    Proof using All.
      intros Hb. assert (Hin : b ∈ nodes b) by (eapply elem_of_list_lookup_2; apply nodes_head).
      assert (H1 : forall x, p ∈ [x] -> x ∈ nodes b -> p ∈ nodes b) by (intros x Hx; apply elem_of_list_singleton in Hx as ->; auto).
      assert (H2 : forall x y, p ∈ [x; y] -> x ∈ nodes b -> y ∈ nodes b -> p ∈ nodes b) by (intros x y Hx H3 H4; apply elem_of_cons in Hx as [-> |Hx]; [exact H3|]; apply elem_of_list_singleton in Hx as ->; exact H4).
      assert (Hc : forall c, ctx er b c -> p ∈ fctx_locks c -> p ∈ nodes b).
      { intros c. destruct c; cbn [ctx fctx_locks]; intros Hx Hp; try (inversion Hp; fail).
        - destruct Hx as [_ ->]. eauto.
        - destruct Hx as (_ & Q1 & _ & Q2 & _). eauto. }
      destruct pc; cbn [kn locks_of]; intros Hk Hp; try (inversion Hp; fail); try contradiction;
        try (apply (Hc _ (proj1 Hk) Hp)); try (destruct c; cbn [pctx_locks] in Hp; try (inversion Hp; fail)); unfold ready, base in Hk;
        repeat match goal with H : _ /\ _ |- _ => destruct H end; subst; eauto.
    Qed.
    Lemma ef_locks t p : t ∈ ls -> p ∈ locks_of (c_pc t) -> exists b, (b < bc)%nat /\ p ∈ nodes b /\ (p < n)%nat.
    Proof using All.
      intros Ht Hp. destruct (ei_tk _ _ _ _ I t Ht) as [_ T]. destruct (c_prog t) as [|op rest]; [rewrite T in Hp; inversion Hp|].
      pose proof (bkt_range (op_key kf op)) as Hb. pose proof (kn_locks _ _ _ _ _ Hb T Hp) as Hn. exists (bkt (op_key kf op)). split; [exact Hb|]. split; [exact Hn|]. exact (nodes_range _ _ Hb Hn).
    Qed.
    (** an occupied entry whose lock a thread holds is linked, unless the thread itself unlinked it *)
    Lemma ef_locked_linked i t p : ls !! i = Some t -> p ∈ locks_of (c_pc t) -> lk (c_occ s) p = true -> (forall q, c_pc t <> XReset p q) -> p ∉ Gn.
    Proof using All.
      intros Hi Hp Ho Hne Hg. pose proof (ei_occx _ _ _ _ I p (ei_gn _ _ _ _ I p Hg)) as H. rewrite Ho, decide_True in H by exact Hg. cbn in H.
      assert (Hnn : forall l, l ∈ ls -> 0 <= resetting p l) by (intros l _; unfold resetting; destruct (c_pc l); try lia; apply at_nonneg).
      destruct (sumZ_pos_witness (resetting p) ls Hnn ltac:(lia)) as (j & tj & Hj & Hjp). unfold resetting in Hjp.
      destruct (c_pc tj) eqn:Ej; try lia. unfold at_ in Hjp. case_decide as Hd; [|lia]. subst p0.
      destruct (decide (i = j)) as [-> |Hij]; [rewrite Hj in Hi; injection Hi as ->; exact (Hne q Ej)|].
      destruct (ef_locks t p (elem_of_list_lookup_2 _ _ _ Hi) Hp) as (_ & _ & _ & Hr). eapply (ef_excl i j t tj p); eauto. rewrite Ej. left.
    Qed.
    Lemma ef_gn_range x : x ∈ Gn -> (bc <= x < n)%nat.
    Proof using All. intros H. destruct (excess_node x (ei_gn _ _ _ _ I x H)) as (b & _ & _ & _ & Hr). exact Hr. Qed.
  End efacts.

  (** *** the steps that write *)
  Lemma ef_room s ls Gn F : einv s ls Gn F -> 0 <= q_c (c_ex s) <= Z.of_nat E /\
    forall i t p q x, ls !! i = Some t -> c_pc t = XPush p q x -> claimed x = false -> q_c (c_ex s) < Z.of_nat E.
  Proof using All.
    intros I. pose proof (ei_qc _ _ _ _ I) as Hq.
    assert (Hb : forall t, t ∈ ls -> 0 <= bal (eproj t) <= Z.of_nat (length (ehand t))).
    { intros t Ht. unfold eproj, ehand. destruct (c_pc t) eqn:Epc; rewrite ?bal_fresh; try (cbn [length]; lia).
      destruct (ei_tk _ _ _ _ I t Ht) as [_ T]. rewrite Epc in T. destruct (c_prog t); [discriminate T|]. destruct T as (_ & _ & T1 & T2). rewrite (bal_push _ _ T1 T2). destruct (claimed t0); cbn; lia. }
    assert (Hlen : Z.of_nat (length F) + sumZ (fun t => Z.of_nat (length (ehand t))) ls <= Z.of_nat E).
    { rewrite sumZ_bind_length. pose proof (Permutation_length (ei_perm _ _ _ _ I)) as H1. rewrite !app_length in H1.
      pose proof (Permutation_length (ci_perm _ _ _ _ _ _ _ _ _ _ I0)) as H2. rewrite seq_length in H2. rewrite !app_length in H2.
      assert (H3 : (length Gn <= length (G0 ≫= gpos))%nat). { apply submseteq_length. apply NoDup_submseteq; [apply (ei_gnd _ _ _ _ I)|apply (ei_gn _ _ _ _ I)]. }
      change (@length nat ([] ≫= hand)) with 0%nat in H2. lia. }
    assert (Hm : sumZ bal (eproj <$> ls) = sumZ (fun t => bal (eproj t)) ls). { clear. induction ls as [|t l IH]; [reflexivity|]. cbn. rewrite IH. reflexivity. }
    rewrite Hm in Hq. pose proof (sumZ_nonneg (fun t => bal (eproj t)) ls (fun t Ht => proj1 (Hb t Ht))).
    pose proof (sumZ_le (fun t => bal (eproj t)) (fun t => Z.of_nat (length (ehand t))) ls (fun t Ht => proj2 (Hb t Ht))).
    split; [lia|]. intros i t p q x Hi Epc Hcl.
    assert (Hd : 0 <= sumZ (fun t => Z.of_nat (length (ehand t)) - bal (eproj t)) ls - 1).
    { pose proof (sumZ_ge_elem (fun t => Z.of_nat (length (ehand t)) - bal (eproj t)) ls i t) as H3. cbn beta in H3.
      assert (H4 : Z.of_nat (length (ehand t)) - bal (eproj t) = 1).
      { destruct (ei_tk _ _ _ _ I t (elem_of_list_lookup_2 _ _ _ Hi)) as [_ T]. rewrite Epc in T. destruct (c_prog t); [discriminate T|]. destruct T as (_ & _ & T1 & T2).
        unfold ehand, eproj. rewrite Epc, (bal_push _ _ T1 T2), Hcl. reflexivity. }
      rewrite H4 in H3. specialize (H3 ltac:(intros l Hl; pose proof (Hb l Hl); lia) Hi). lia. }
    rewrite (sumZ_ext _ (fun t => Z.of_nat (length (ehand t)) + - bal (eproj t))) in Hd by (intros; lia). rewrite sumZ_add in Hd.
    assert (Hneg : sumZ (fun t => - bal (eproj t)) ls = - sumZ (fun t => bal (eproj t)) ls). { clear. induction ls as [|t l IH]; [reflexivity|]. cbn. rewrite IH. lia. }
    lia.
  Qed.
  Lemma sum_occ_reset (l : list bool) p : lk l p = true -> sumZ Z.b2z (<[p := false]> l) = sumZ Z.b2z l - 1.
  Proof.
    unfold lk. intros H. destruct (l !! p) as [b|] eqn:E0; [|discriminate]. cbn in H. subst b. rewrite (sumZ_insert _ _ _ _ _ E0). cbn. lia.
  Qed.
  Lemma lk_lt (l : list bool) p : lk l p = true -> (p < length l)%nat.
  Proof. unfold lk. intros H. destruct (l !! p) eqn:E0; [|discriminate]. eapply lookup_lt_Some; exact E0. Qed.
  (** the value of entry p is taken out *)
  Lemma step_reset s ls Gn F i t pc' p k rest v : einv s ls Gn F -> ls !! i = Some t -> c_prog t = CErase k :: rest ->
    p ∈ locks_of (c_pc t) -> lk (c_occ s) p = true -> st0 p v -> keq (kf v) k = true ->
    (p ∈ G0 ≫= gpos -> p ∈ Gn /\ exists q, c_pc t = XReset p q) -> (forall x q, c_pc t = XReset x q -> x = p /\ p ∈ G0 ≫= gpos) -> (forall x q, pc' <> XReset x q) ->
    past (c_pc t) = false -> past pc' = true -> locks_of pc' = locks_of (c_pc t) -> ehand (cgo t pc') = ehand t -> eproj (cgo t pc') = eproj t -> epend t = 0 -> epend (cgo t pc') = 1 ->
    kn (put_occ s p false) Gn true (bkt k) k pc' ->
    einv (put_occ s p false) (<[i := cgo t pc']> ls) Gn F.
  Proof using All.
    intros I Hi Ep Hlk Ho Hv Hk Hx Hx2 Hx3 Hp1 Hp2 Hlks Hh Hpr He1 He2 Hkn.
    assert (Hin : t ∈ ls) by (eapply elem_of_list_lookup_2; exact Hi). pose proof (lk_lt _ _ Ho) as Hlt.
    assert (Hocc : forall x, lk (<[p := false]> (c_occ s)) x = if decide (x = p) then false else lk (c_occ s) x) by (intros x; apply lk_insert; exact Hlt).
    eapply (eupd s ls Gn F i t); try eassumption; cbn [put_occ c_values c_off c_occ c_locks c_count c_ex]; try solve [apply I].
    - reflexivity.
    - rewrite insert_length. split; [apply (ei_lf _ _ _ _ I)|]. split; [apply (ei_lo _ _ _ _ I)|apply (ei_ll _ _ _ _ I)].
    - rewrite Hh. reflexivity.
    - intros x. rewrite Hocc. case_decide; [discriminate|auto].
    - intros x Hxg. rewrite Hocc.
      assert (H1 : resetting x (cgo t pc') = 0) by (unfold resetting; cbn [cgo c_pc]; destruct pc'; try reflexivity; destruct (Hx3 _ _ eq_refl)).
      assert (H2 : resetting x t = if decide (x = p) then 1 else 0).
      { unfold resetting. case_decide as Hd.
        - subst x. destruct (Hx Hxg) as [_ [q Hq]]. rewrite Hq. apply at_same.
        - destruct (c_pc t) eqn:Epc; try reflexivity. destruct (Hx2 _ _ eq_refl) as [-> _]. unfold at_. rewrite decide_False by exact Hd. reflexivity. }
      rewrite H1, H2. case_decide as Hd; [|lia]. subst x. rewrite Ho. cbn. lia.
    - intros p0 Hp0. unfold eholds. cbn [cgo c_pc]. rewrite Hlks. lia.
    - rewrite (sum_occ_reset _ _ Ho). lia.
    - eapply evec_same; eauto.
    - rewrite Hpr. lia.
    - intros p0 v0 Hp0. rewrite Hocc. unfold succ, rsucc. cbn [cgo c_prog c_pc c_log]. rewrite Ep, Hp1, Hp2.
      destruct (decide (p0 = p)) as [-> |Hne].
      + rewrite Ho. assert (v0 = v) as -> by (eapply st0_fun; eauto). rewrite (keq_sym _ _ Hk). cbn. lia.
      + destruct (keq k (kf v0)) eqn:E0; [|cbn; lia]. destruct Hne. eapply st0_inj; [exact Hp0|exact Hv|]. apply keq_sym. eapply keq_trans; eauto.
    - intros k0 H. left. exact H.
    - intros k0 rest0 H _. right. cbn [cgo c_prog] in H. rewrite Ep in H. injection H as <- _. eauto.
    - split; cbn [cgo c_prog c_pc]; [apply (ei_tk _ _ _ _ I t Hin)|]. rewrite Ep. exact Hkn.
    - intros j tj Hne Hj. split; [intros x; cbn [put_occ c_occ]; rewrite Hocc; case_decide; [discriminate|auto]|]. split; [auto|]. split; [intros x y H; apply rtc_once; exact H|].
      intros x Hxl. cbn [put_occ c_occ c_off]. rewrite Hocc. split; [|auto]. rewrite decide_False; [reflexivity|]. intros ->.
      destruct (ef_locks s ls Gn F I t p Hin Hlk) as (_ & _ & _ & Hr). eapply (ef_excl s ls Gn F I i j t tj p); eauto.
  Qed.
  (** entry p is taken out of its list *)
  Lemma step_unlink s ls Gn F i t p q o k rest : einv s ls Gn F -> ls !! i = Some t -> c_prog t = CErase k :: rest -> c_pc t = XPut p q o ->
    einv (put_off s q o) (<[i := cgo t (XReset p q)]> ls) (p :: Gn) F /\ (forall x y, nxt (put_off s q o) x y -> rtc (nxt s) x y).
  Proof using All.
    intros I Hi Ep Epc. assert (Hin : t ∈ ls) by (eapply elem_of_list_lookup_2; exact Hi).
    pose proof (ei_tk _ _ _ _ I t Hin) as [T1 T2]. rewrite Ep, Epc in T2. cbn [is_er op_key kn] in T2. set (b := bkt k) in *. assert (Hb : (b < bc)%nat) by apply bkt_range.
    destruct T2 as (((_ & B1 & B2 & B3 & B4) & [Ho (v & Hv & Hk)] & Hq & (qo' & Q1 & Q2 & Q3)) & po & qo & Hpo & Hqo & Eo). rewrite Hqo in Q1. injection Q1 as <-.
    destruct (nodes_excess b p Hb B1 B2) as (Hpx & Hpr & _).
    assert (Hpn : p ∉ Gn). { eapply (ef_locked_linked s ls Gn F I i t p Hi); [rewrite Epc; left|exact Ho|rewrite Epc; discriminate]. }
    pose proof B1 as B1'. apply elem_of_list_lookup in B1' as [ap Hap]. pose proof B3 as B3'. apply elem_of_list_lookup in B3' as [aq Haq].
    assert (Hqp : nxt s q p) by (exists qo; auto).
    destruct (ef_nxt s ls Gn F I b aq q p Hb Haq Hqp) as (ap' & Hlt & Hap' & Hbtw). assert (ap' = ap) as -> by (exact (ef_idx s ls Gn F I b ap' ap p Hb Hap' Hap)).
    assert (Hqlen : (q < length (c_off s))%nat) by (eapply lookup_lt_Some; exact Hqo).
    (* where the new offset leads *)
    assert (Hnew : (o = 0 /\ po = 0 /\ forall a' x, (ap < a')%nat -> nodes b !! a' = Some x -> x ∈ Gn) \/
      exists a' j, (ap < a')%nat /\ nodes b !! a' = Some j /\ Z.of_nat q + o = Z.of_nat j /\ nxt s p j /\ forall a'' x, (ap < a'' < a')%nat -> nodes b !! a'' = Some x -> x ∈ Gn).
    { destruct (ei_next _ _ _ _ I b ap p Hb Hap) as (po' & Hpo' & Hcase). rewrite Hpo in Hpo'. injection Hpo' as <-. destruct Hcase as [[-> H]|(a' & j & H1 & H2 & H3 & H4)].
      - left. rewrite Z.eqb_refl in Eo. auto.
      - right. exists a', j. assert (Hne : po <> 0). { intros ->. assert (j = p) as -> by lia. pose proof (ef_idx s ls Gn F I b ap a' p Hb Hap H2). lia. }
        rewrite (proj2 (Z.eqb_neq _ _) Hne) in Eo. split; [exact H1|]. split; [exact H2|]. split; [lia|]. split; [exists po; auto|exact H4]. }
    assert (Hoff : forall x, x <> q -> c_off (put_off s q o) !! x = c_off s !! x) by (intros x Hx; cbn [put_off c_off]; apply list_lookup_insert_ne; congruence).
    assert (Hoffq : c_off (put_off s q o) !! q = Some o) by (cbn [put_off c_off]; apply list_lookup_insert; exact Hqlen).
    assert (Hsub : forall x y, nxt (put_off s q o) x y -> rtc (nxt s) x y).
    { intros x y (o' & H1 & H2 & H3). destruct (decide (x = q)) as [-> |Hne].
      - rewrite Hoffq in H1. injection H1 as <-. destruct Hnew as [[-> _]|(a' & j & _ & _ & Hj & Hpj & _)]; [contradiction|].
        assert (y = j) as -> by lia. eapply rtc_l; [exact Hqp|]. apply rtc_once. exact Hpj.
      - rewrite Hoff in H1 by exact Hne. apply rtc_once. exists o'. auto. }
    assert (Hrtc : forall x y, rtc (nxt (put_off s q o)) x y -> rtc (nxt s) x y).
    { intros x y R. induction R as [x|x y z H1 _ IH]; [apply rtc_refl|]. etransitivity; [apply Hsub; exact H1|exact IH]. }
    split; [|exact Hsub].
    assert (Hlive : forall b0 x, (b0 < bc)%nat -> rtc (nxt (put_off s q o)) b0 x -> x ∉ p :: Gn).
    { intros b0 x Hb0 R Hx. apply elem_of_cons in Hx as [-> |Hx]; [|apply (ei_live _ _ _ _ I b0 x Hb0 (Hrtc _ _ R) Hx)].
      assert (b0 = b) as ->.
      { destruct (ef_rtc s ls Gn F I b0 0%nat b0 p Hb0 (nodes_head b0) (Hrtc _ _ R)) as (a1 & _ & H1). apply (nodes_other b0 b p Hb0 Hb); [eapply elem_of_list_lookup_2; exact H1|exact B1]. }
      apply rtc_inv_r in R as [R|(y & R & Hy)]; [congruence|]. pose proof (Hrtc _ _ R) as R'. pose proof (ei_live _ _ _ _ I b y Hb R') as Hyl.
      destruct (ef_rtc s ls Gn F I b 0%nat b y Hb (nodes_head b) R') as (ay & _ & Hay). destruct Hy as (oy & Hy1 & Hy2 & Hy3).
      destruct (decide (y = q)) as [-> |Hyq].
      - rewrite Hoffq in Hy1. injection Hy1 as <-. destruct Hnew as [[-> _]|(a' & j & H1 & H2 & H3 & _)]; [contradiction|].
        assert (j = p) as -> by lia. pose proof (ef_idx s ls Gn F I b ap a' p Hb Hap H2). lia.
      - rewrite Hoff in Hy1 by exact Hyq. assert (Hyp : nxt s y p) by (exists oy; auto).
        destruct (ef_nxt s ls Gn F I b ay y p Hb Hay Hyp) as (ap2 & H1 & H2 & H3). assert (ap2 = ap) as -> by (exact (ef_idx s ls Gn F I b ap2 ap p Hb H2 Hap)).
        destruct (decide (ay < aq)%nat) as [Hd|Hd]; [apply Hq, (H3 aq q); [lia|exact Haq]|].
        destruct (decide (aq < ay)%nat) as [Hd2|Hd2]; [apply Hyl, (Hbtw ay y); [lia|exact Hay]|].
        assert (ay = aq) as -> by lia. rewrite Haq in Hay. injection Hay as ->. contradiction. }
    eapply (eupd s ls Gn F i t); try eassumption; cbn [put_off c_values c_off c_occ c_locks c_count c_ex]; try solve [apply I].
    - reflexivity.
    - rewrite insert_length. split; [apply (ei_lf _ _ _ _ I)|]. split; [apply (ei_lo _ _ _ _ I)|apply (ei_ll _ _ _ _ I)].
    - intros x Hx. apply elem_of_cons in Hx as [-> |Hx]; [exact Hpx|apply (ei_gn _ _ _ _ I x Hx)].
    - apply NoDup_cons. split; [exact Hpn|apply (ei_gnd _ _ _ _ I)].
    - unfold ehand. rewrite Epc. cbn [cgo c_pc app]. apply Permutation_middle.
    - auto.
    - intros x Hx. unfold resetting. rewrite Epc. cbn [cgo c_pc]. unfold at_. destruct (decide (x = p)) as [-> |Hne].
      + rewrite (decide_True (P:=p ∈ p :: Gn)) by left. rewrite (decide_False (P:=p ∈ Gn)) by exact Hpn. lia.
      + destruct (decide (x ∈ Gn)) as [Hd|Hd]; [rewrite decide_True by (right; exact Hd)|rewrite decide_False by (intros [Hc|Hc]%elem_of_cons; contradiction)]; lia.
    - intros x ox Hx. destruct (decide (x = q)) as [-> |Hne].
      + change (<[q:=o]> (c_off s)) with (c_off (put_off s q o)) in Hx. rewrite Hoffq in Hx. injection Hx as <-.
        pose proof (nodes_range b q Hb B3). destruct Hnew as [[-> _]|(a' & j & _ & H2 & H3 & _)]; [lia|].
        pose proof (nodes_range b j Hb (elem_of_list_lookup_2 _ _ _ H2)). lia.
      + change (<[q:=o]> (c_off s)) with (c_off (put_off s q o)) in Hx. rewrite Hoff in Hx by exact Hne. apply (ei_off _ _ _ _ I x ox Hx).
    - intros b0 a0 x Hb0 Hx. destruct (decide (x = q)) as [-> |Hne].
      + assert (b0 = b) as -> by (eapply nodes_other; [exact Hb0|exact Hb|eapply elem_of_list_lookup_2; exact Hx|exact B3]).
        assert (a0 = aq) as -> by (exact (ef_idx s ls Gn F I b a0 aq q Hb Hx Haq)). exists o. split; [exact Hoffq|]. destruct Hnew as [(E0 & _ & H)|(a' & j & H1 & H2 & H3 & _ & H4)].
        * left. split; [exact E0|]. intros a' x Ha' Hx'. destruct (decide (a' = ap)) as [-> |Hd]; [rewrite Hap in Hx'; injection Hx' as ->; left|]. right.
          destruct (decide (a' < ap)%nat); [apply (Hbtw a' x); [lia|exact Hx']|apply (H a' x); [lia|exact Hx']].
        * right. exists a', j. split; [lia|]. split; [exact H2|]. split; [exact H3|]. intros a2 x Ha2 Hx'. destruct (decide (a2 = ap)) as [-> |Hd]; [rewrite Hap in Hx'; injection Hx' as ->; left|]. right.
          destruct (decide (a2 < ap)%nat); [apply (Hbtw a2 x); [lia|exact Hx']|apply (H4 a2 x); [lia|exact Hx']].
      + destruct (ei_next _ _ _ _ I b0 a0 x Hb0 Hx) as (ox & H1 & H2). exists ox. split; [rewrite Hoff by exact Hne; exact H1|].
        destruct H2 as [[-> H]|(a' & j & H3 & H4 & H5 & H6)]; [left; split; [reflexivity|]; intros; right; eauto|]. right. exists a', j. repeat (split; [assumption|]). intros. right. eauto.
    - intros x Hx. unfold eholds. rewrite Epc. cbn [cgo c_pc locks_of]. lia.
    - unfold epend. rewrite Epc. cbn [cgo c_pc]. lia.
    - apply (evec_same s ls Gn F i t); auto. unfold eproj. rewrite Epc. reflexivity.
    - unfold eproj. rewrite Epc. cbn [cgo c_pc]. lia.
    - intros p0 v0 _. unfold succ, rsucc. rewrite Epc, Ep. cbn [cgo c_pc c_prog c_log past]. rewrite Ep. rewrite !andb_false_r. lia.
    - intros k0 H. left. exact H.
    - cbn [cgo c_pc past]. discriminate.
    - split; cbn [cgo c_prog c_pc]; [exact T1|]. rewrite Ep. cbn [is_er op_key kn]. split; [split; [reflexivity|]; auto|]. split; [left|]. eauto.
    - intros j tj Hne Hj. split; [cbn [put_off c_occ]; auto|]. split; [intros x Hx; right; exact Hx|]. split; [exact Hsub|]. intros x Hx. cbn [put_off c_occ]. split; [reflexivity|]. split.
      + apply Hoff. intros ->. eapply (ef_excl s ls Gn F I i j t tj q); eauto; [rewrite (ei_lf _ _ _ _ I) in Hqlen; exact Hqlen|rewrite Epc; right; left].
      + intros Hc. apply elem_of_cons in Hc as [-> |Hc]; [|exact Hc]. exfalso. eapply (ef_excl s ls Gn F I i j t tj p); eauto; [exact (nodes_range b p Hb B1)|rewrite Epc; left].
  Qed.
  (** one step of the push_back of the position *)
  Lemma step_push s ls Gn F i t p q x y x' k rest : einv s ls Gn F -> ls !! i = Some t -> c_prog t = CErase k :: rest -> c_pc t = XPush p q x ->
    qstep (vctl E) i (c_ex s) x = Some (y, x') ->
    exists F', einv (put_ex s y) (<[i := cgo t (match q_prog x' with [] => XUnl1 p q true | _ => XPush p q x' end)]> ls) Gn F'.
  Proof using All.
    intros I Hi Ep Epc Hst. assert (Hin : t ∈ ls) by (eapply elem_of_list_lookup_2; exact Hi).
    pose proof (ei_tk _ _ _ _ I t Hin) as [T1 T2]. rewrite Ep, Epc in T2. cbn [is_er op_key kn] in T2. destruct T2 as (B & Hg & P1 & P2).
    destruct (ef_room s ls Gn F I) as [Hq1 Hq2].
    assert (Hx : (eproj <$> ls) !! i = Some x) by (rewrite list_lookup_fmap, Hi; cbn; unfold eproj; rewrite Epc; reflexivity).
    assert (Hex : eproj t = x) by (unfold eproj; rewrite Epc; reflexivity).
    destruct (push_step E F (c_ex s) (eproj <$> ls) i x p y x' (ei_vec _ _ _ _ I) Hx P1 P2) as [(H1 & H2 & H3 & H4)|(H1 & H3 & H4)]; [|exact Hst| |].
    { intros Hcl. pose proof (Hq2 i t p q x Hi Epc Hcl). lia. }
    - exists F. rewrite H1, P1.
      eapply (eupd s ls Gn F i t); try eassumption; cbn [put_ex c_values c_off c_occ c_locks c_count c_ex]; try solve [apply I]; try reflexivity; try lia.
      + split; [apply (ei_lf _ _ _ _ I)|]. split; [apply (ei_lo _ _ _ _ I)|apply (ei_ll _ _ _ _ I)].
      + unfold ehand. rewrite Epc. reflexivity.
      + intros z _. unfold resetting. rewrite Epc. cbn [cgo c_pc]. lia.
      + intros z _. unfold eholds. rewrite Epc. cbn [cgo c_pc locks_of]. lia.
      + unfold epend. rewrite Epc. cbn [cgo c_pc]. lia.
      + rewrite Hex. change (eproj (cgo t (XPush p q x'))) with x'. lia.
      + intros p0 v0 _. unfold succ, rsucc. rewrite Epc, Ep. cbn [cgo c_pc c_prog c_log past]. rewrite Ep. lia.
      + intros k0 H. left. exact H.
      + intros k0 r0 _ _. left. split; [reflexivity|]. rewrite Epc. reflexivity.
      + split; cbn [cgo c_prog c_pc]; [exact T1|]. rewrite Ep. cbn [is_er op_key kn]. rewrite H1. auto.
      + intros j tj _ _. apply mono_same; reflexivity.
    - exists (p :: F). rewrite H1.
      eapply (eupd s ls Gn F i t); try eassumption; cbn [put_ex c_values c_off c_occ c_locks c_count c_ex]; try solve [apply I]; try reflexivity; try lia.
      + split; [apply (ei_lf _ _ _ _ I)|]. split; [apply (ei_lo _ _ _ _ I)|apply (ei_ll _ _ _ _ I)].
      + unfold ehand. rewrite Epc. reflexivity.
      + intros z _. unfold resetting. rewrite Epc. cbn [cgo c_pc]. lia.
      + intros z _. unfold eholds. rewrite Epc. cbn [cgo c_pc locks_of]. lia.
      + unfold epend. rewrite Epc. cbn [cgo c_pc]. lia.
      + rewrite Hex. change (eproj (cgo t (XUnl1 p q true))) with (fresh_call []). rewrite bal_fresh. cbn [length]. lia.
      + intros p0 v0 _. unfold succ, rsucc. rewrite Epc, Ep. cbn [cgo c_pc c_prog c_log past]. rewrite Ep. lia.
      + intros k0 H. left. exact H.
      + intros k0 r0 _ _. left. split; [reflexivity|]. rewrite Epc. reflexivity.
      + split; cbn [cgo c_prog c_pc]; [exact T1|]. rewrite Ep. cbn [is_er op_key kn]. exact B.
      + intros j tj _ _. apply mono_same; reflexivity.
  Qed.
  (** *** the other steps *)
  Lemma cgo_succ t op rest pc pc' k : c_prog t = op :: rest -> c_pc t = pc -> past pc' = past pc -> succ k (cgo t pc') = succ k t.
  Proof. intros Ep Epc Hp. unfold succ, rsucc. cbn [cgo c_prog c_pc c_log]. rewrite Epc, Hp. reflexivity. Qed.
  Lemma cgo_run t pc pc' (P : K -> Prop) : c_pc t = pc -> past pc' = past pc ->
    forall k rest, c_prog (cgo t pc') = CErase k :: rest -> past (c_pc (cgo t pc')) = true -> (c_prog (cgo t pc') = c_prog t /\ past (c_pc t) = true) \/ P k.
  Proof. intros Epc Hp k rest _ H. left. split; [reflexivity|]. rewrite Epc, <- Hp. exact H. Qed.
  Lemma cgo_tk s Gn t op rest pc' : c_prog t = op :: rest -> (forall o, o ∈ c_prog t -> ecall_ok o) -> kn s Gn (is_er op) (bkt (op_key kf op)) (op_key kf op) pc' -> tk s Gn (cgo t pc').
  Proof. intros Ep T H. split; cbn [cgo c_prog c_pc]; [exact T|]. rewrite Ep. exact H. Qed.
  Definition quiet_pc (pc : upc) : Prop := match pc with XReset _ _ | XCnt _ _ | XDes _ _ | XPush _ _ _ | XCntB _ => False | _ => True end.
  Lemma go_local s ls Gn F i t op rest pc pc' : einv s ls Gn F -> ls !! i = Some t -> c_prog t = op :: rest -> c_pc t = pc ->
    quiet_pc pc -> quiet_pc pc' -> locks_of pc' = locks_of pc -> past pc' = past pc -> kn s Gn (is_er op) (bkt (op_key kf op)) (op_key kf op) pc' ->
    einv s (<[i := cgo t pc']> ls) Gn F.
  Proof using All.
    intros I Hi Ep Epc Q Q' Hl Hp Hk. pose proof (ei_tk _ _ _ _ I t (elem_of_list_lookup_2 _ _ _ Hi)) as [T _].
    eapply eupd_local; eauto.
    - unfold ehand. cbn [cgo c_pc]. rewrite Epc. destruct pc, pc'; cbn in Q, Q'; try contradiction; reflexivity.
    - intros x. unfold resetting. cbn [cgo c_pc]. rewrite Epc. destruct pc, pc'; cbn in Q, Q'; try contradiction; reflexivity.
    - unfold eproj. cbn [cgo c_pc]. rewrite Epc. destruct pc, pc'; cbn in Q, Q'; try contradiction; reflexivity.
    - intros p. unfold eholds. cbn [cgo c_pc]. rewrite Epc, Hl. reflexivity.
    - unfold epend. cbn [cgo c_pc]. rewrite Epc. destruct pc, pc'; cbn in Q, Q'; try contradiction; reflexivity.
    - intros k. exact (cgo_succ t op rest pc pc' k Ep Epc Hp).
    - exact (cgo_run t pc pc' _ Epc Hp).
    - exact (cgo_tk s Gn t op rest pc' Ep T Hk).
  Qed.
  Lemma go_lock s ls Gn F i t op rest pc pc' p (b : bool) : einv s ls Gn F -> ls !! i = Some t -> c_prog t = op :: rest -> c_pc t = pc ->
    quiet_pc pc -> quiet_pc pc' -> (p < n)%nat -> lk (c_locks s) p = negb b -> (if b then locks_of pc' ≡ₚ p :: locks_of pc else locks_of pc ≡ₚ p :: locks_of pc') ->
    past pc' = past pc -> kn s Gn (is_er op) (bkt (op_key kf op)) (op_key kf op) pc' ->
    einv (put_lock s p b) (<[i := cgo t pc']> ls) Gn F.
  Proof using All.
    intros I Hi Ep Epc Q Q' Hr Hlk Hl Hp Hk. pose proof (ei_tk _ _ _ _ I t (elem_of_list_lookup_2 _ _ _ Hi)) as [T _].
    eapply eupd_lock; eauto.
    - intros x. unfold eholds. cbn [cgo c_pc]. rewrite Epc. destruct b; apply (perm_sum _ _ (at_ x)) in Hl; rewrite Hl; cbn [sumZ]; lia.
    - unfold ehand. cbn [cgo c_pc]. rewrite Epc. destruct pc, pc'; cbn in Q, Q'; try contradiction; reflexivity.
    - intros x. unfold resetting. cbn [cgo c_pc]. rewrite Epc. destruct pc, pc'; cbn in Q, Q'; try contradiction; reflexivity.
    - unfold eproj. cbn [cgo c_pc]. rewrite Epc. destruct pc, pc'; cbn in Q, Q'; try contradiction; reflexivity.
    - unfold epend. cbn [cgo c_pc]. rewrite Epc. destruct pc, pc'; cbn in Q, Q'; try contradiction; reflexivity.
    - intros k. exact (cgo_succ t op rest pc pc' k Ep Epc Hp).
    - exact (cgo_run t pc pc' _ Epc Hp).
    - exact (cgo_tk s Gn t op rest pc' Ep T Hk).
  Qed.
  Lemma lsucc_app k l1 l2 : lsucc k (l1 ++ l2) = lsucc k l1 + lsucc k l2.
  Proof. apply sumZ_app. Qed.
  Lemma fin_succ t op rest r k : c_prog t = op :: rest -> (match op, r with CErase _, RErased ok => past (c_pc t) = ok | CErase _, _ => False | CFind _, _ => True | _, _ => False end) ->
    succ k (cfinish t op r) = succ k t.
  Proof.
    intros Ep Hm. unfold succ, rsucc. cbn [cfinish c_prog c_pc c_log]. rewrite Ep, lsucc_app. unfold lsucc at 2. cbn [tail sumZ].
    assert (E0 : (match rest with CErase k' :: _ => if keq k' k && past UIdle then 1 else 0 | _ => 0 end) = 0).
    { destruct rest as [|[v|k'|k'] rest']; try reflexivity. cbn [past]. rewrite andb_false_r. reflexivity. }
    rewrite E0. destruct op as [v|k'|k']; [contradiction| |]; [|destruct r; lia].
    destruct r as [p| |ok|o]; try contradiction. rewrite Hm. destruct ok; destruct (keq k' k); cbn [andb]; lia.
  Qed.
  Lemma fin_tk s Gn t op rest r : c_prog t = op :: rest -> (forall o, o ∈ c_prog t -> ecall_ok o) -> tk s Gn (cfinish t op r).
  Proof.
    intros Ep T. split; cbn [cfinish c_prog c_pc]; rewrite Ep; cbn [tail].
    - intros o Ho. apply T. rewrite Ep. right. exact Ho.
    - destruct rest; [reflexivity|exact Logic.I].
  Qed.
  Lemma fin_local s ls Gn F i t op rest r : einv s ls Gn F -> ls !! i = Some t -> c_prog t = op :: rest -> quiet_pc (c_pc t) -> locks_of (c_pc t) = [] ->
    past (c_pc t) = false -> (match op, r with CErase _, RErased false => True | CFind _, RFound _ => True | _, _ => False end) ->
    einv s (<[i := cfinish t op r]> ls) Gn F.
  Proof using All.
    intros I Hi Ep Q Hl Hp Hr. pose proof (ei_tk _ _ _ _ I t (elem_of_list_lookup_2 _ _ _ Hi)) as [T _].
    eapply eupd_local; eauto.
    - unfold ehand. cbn [cfinish c_pc]. destruct (c_pc t); cbn in Q; try contradiction; reflexivity.
    - intros x. unfold resetting. cbn [cfinish c_pc]. destruct (c_pc t); cbn in Q; try contradiction; reflexivity.
    - unfold eproj. cbn [cfinish c_pc]. destruct (c_pc t); cbn in Q; try contradiction; reflexivity.
    - intros p. unfold eholds. rewrite Hl. reflexivity.
    - unfold epend. cbn [cfinish c_pc]. destruct (c_pc t); cbn in Q; try contradiction; reflexivity.
    - intros k. eapply fin_succ; eauto. rewrite Hp. destruct op, r as [| |[]|]; auto.
    - intros k H. cbn [cfinish c_log] in H. apply elem_of_app in H as [H|H]; [left; exact H|]. apply elem_of_list_singleton in H. injection H as <- <-. destruct Hr.
    - cbn [cfinish c_pc past]. discriminate.
    - eapply fin_tk; eauto.
  Qed.
  Lemma fin_unlock s ls Gn F i t k rest p : einv s ls Gn F -> ls !! i = Some t -> c_prog t = CErase k :: rest -> quiet_pc (c_pc t) -> locks_of (c_pc t) = [p] ->
    past (c_pc t) = true -> (p < n)%nat -> lk (c_locks s) p = true ->
    einv (put_lock s p false) (<[i := cfinish t (CErase k) (RErased true)]> ls) Gn F.
  Proof using All.
    intros I Hi Ep Q Hl Hp Hr Hlk. assert (Hin : t ∈ ls) by (eapply elem_of_list_lookup_2; exact Hi). pose proof (ei_tk _ _ _ _ I t Hin) as [T _].
    eapply eupd_lock; eauto.
    - intros x. unfold eholds. rewrite Hl. cbn [cfinish c_pc locks_of sumZ]. lia.
    - unfold ehand. cbn [cfinish c_pc]. destruct (c_pc t); cbn in Q; try contradiction; reflexivity.
    - intros x. unfold resetting. cbn [cfinish c_pc]. destruct (c_pc t); cbn in Q; try contradiction; reflexivity.
    - unfold eproj. cbn [cfinish c_pc]. destruct (c_pc t); cbn in Q; try contradiction; reflexivity.
    - unfold epend. cbn [cfinish c_pc]. destruct (c_pc t); cbn in Q; try contradiction; reflexivity.
    - intros k0. eapply fin_succ; eauto.
    - intros k0 H. cbn [cfinish c_log] in H. apply elem_of_app in H as [H|H]; [left; exact H|]. apply elem_of_list_singleton in H. injection H as ->. right.
      exact (ei_run _ _ _ _ I t k rest Hin Ep Hp).
    - cbn [cfinish c_pc past]. discriminate.
    - eapply fin_tk; eauto.
  Qed.
  (** the lock a thread holds is set *)
  Lemma ef_held s ls Gn F i t p : einv s ls Gn F -> ls !! i = Some t -> p ∈ locks_of (c_pc t) -> (p < n)%nat /\ lk (c_locks s) p = true.
  Proof using All.
    intros I Hi Hp. destruct (ef_locks s ls Gn F I t p (elem_of_list_lookup_2 _ _ _ Hi) Hp) as (_ & _ & _ & Hr). split; [exact Hr|].
    pose proof (ei_lock _ _ _ _ I p Hr) as H. pose proof (sumZ_ge_elem (eholds p) ls i t (fun l _ => eholds_nonneg p l) Hi) as H1. pose proof (at_in p _ Hp) as H2. unfold eholds at 1 in H1.
    destruct (lk (c_locks s) p); [reflexivity|]. cbn in H. lia.
  Qed.
  (** *** the calls of find() and find_previous_entry_position() *)
  Lemma cleared_S s Gn b k a x : nodes b !! a = Some x -> cleared_to s Gn b k a -> cleared s Gn k x -> cleared_to s Gn b k (S a).
  Proof. intros Hx H1 H2 a' y Ha' Hy. destruct (decide (a' = a)) as [-> |Hne]; [rewrite Hx in Hy; injection Hy as <-; exact H2|]. apply (H1 a' y); [lia|exact Hy]. Qed.
  Lemma ctx_quiet er b c r : ctx er b c -> forall t op b0, exists pc', after_find (K:=K) (V:=V) t op b0 c r = cgo t pc' \/ after_find t op b0 c r = cfinish t op match c with FUser => RFound r | _ => RErased false end.
  Proof.
    intros H t op b0. destruct c; cbn [ctx after_find] in *; try contradiction.
    - exists UIdle. right. reflexivity.
    - destruct r as [p|]; [case_bool_decide; eexists; left; reflexivity|exists UIdle; right; reflexivity].
    - case_bool_decide; eexists; left; reflexivity.
    - eexists; left; reflexivity.
  Qed.
  Lemma find_some s ls Gn F i t op rest c x v : einv s ls Gn F -> ls !! i = Some t -> c_prog t = op :: rest -> c_pc t = FVal c x -> st0 x v -> keq (kf v) (op_key kf op) = true ->
    einv s (<[i := after_find t op (bkt (op_key kf op)) c (Some x)]> ls) Gn F.
  Proof using All.
    intros I Hi Ep Epc Hv Hk. pose proof (ei_tk _ _ _ _ I t (elem_of_list_lookup_2 _ _ _ Hi)) as [T T2]. rewrite Ep, Epc in T2. cbn [kn] in T2.
    set (k := op_key kf op) in *. set (b := bkt k) in *. assert (Hb : (b < bc)%nat) by apply bkt_range. destruct T2 as (C & _ & Hh & a & Ha & _).
    assert (Hxn : x ∈ nodes b) by (eapply elem_of_list_lookup_2; exact Ha). assert (Hbn : b ∈ nodes b) by (eapply elem_of_list_lookup_2; apply nodes_head).
    assert (He : ecall_ok op) by (apply T; rewrite Ep; left).
    destruct c as [| | |e ch| |p|p q]; cbn [ctx] in C; try contradiction; cbn [after_find].
    - apply (fin_local s ls Gn F i t op rest); auto; try (rewrite Epc; cbn; auto; fail). destruct op; [contradiction He|discriminate C|exact Logic.I].
    - destruct (decide (x = b)) as [-> |Hne]; [rewrite bool_decide_true by reflexivity|rewrite bool_decide_false by exact Hne].
      + apply (go_local s ls Gn F i t op rest (FVal FEr1 b)); auto; try exact Logic.I. cbn [kn]. auto.
      + apply (go_local s ls Gn F i t op rest (FVal FEr1 x)); auto; try exact Logic.I. cbn [kn]. auto.
    - destruct C as [C ->]. destruct (decide (x = b)) as [-> |Hne]; [rewrite bool_decide_true by reflexivity|rewrite bool_decide_false by congruence].
      + apply (go_local s ls Gn F i t op rest (FVal (FErB b) b)); auto; try exact Logic.I. cbn [kn]. split; [exact C|]. split; [reflexivity|]. split; [apply Hh; reflexivity|]. eauto.
      + apply (go_local s ls Gn F i t op rest (FVal (FErB b) x)); auto; try exact Logic.I. cbn [kn]. auto.
    - apply (go_local s ls Gn F i t op rest (FVal (FErL p q) x)); auto; try exact Logic.I. cbn [kn]. split; [exact C|]. split; [reflexivity|]. exists 0%nat. split; [apply nodes_head|]. split.
      + intros Hs. apply bool_decide_eq_true in Hs. injection Hs as ->. split; [split; [apply Hh; reflexivity|eauto]|]. exists a. split; [|exact Ha].
        destruct a; [|lia]. rewrite nodes_head in Ha. injection Ha as Ha. destruct C as (_ & _ & C & _). congruence.
      + intros Hq R. exact (ei_live _ _ _ _ I b q Hb R Hq).
  Qed.
  Lemma find_none s ls Gn F i t op rest c x : einv s ls Gn F -> ls !! i = Some t -> c_prog t = op :: rest -> c_pc t = FOff c x ->
    einv s (<[i := after_find t op (bkt (op_key kf op)) c None]> ls) Gn F.
  Proof using All.
    intros I Hi Ep Epc. pose proof (ei_tk _ _ _ _ I t (elem_of_list_lookup_2 _ _ _ Hi)) as [T T2]. rewrite Ep, Epc in T2. cbn [kn] in T2.
    set (k := op_key kf op) in *. set (b := bkt k) in *. assert (Hb : (b < bc)%nat) by apply bkt_range. destruct T2 as (C & a & Ha & _).
    assert (He : ecall_ok op) by (apply T; rewrite Ep; left).
    destruct c as [| | |e ch| |p|p q]; cbn [ctx] in C; try contradiction; cbn [after_find].
    - apply (fin_local s ls Gn F i t op rest); auto; try (rewrite Epc; cbn; auto; fail). destruct op; [contradiction He|discriminate C|exact Logic.I].
    - apply (fin_local s ls Gn F i t op rest); auto; try (rewrite Epc; cbn; auto; fail). destruct op; [contradiction He|exact Logic.I|discriminate C].
    - rewrite bool_decide_false by discriminate. apply (go_local s ls Gn F i t op rest (FOff (FErB p) x)); auto; try exact Logic.I.
    - rewrite bool_decide_false by discriminate. apply (go_local s ls Gn F i t op rest (FOff (FErL p q) x)); auto; try exact Logic.I. cbn [kn]. split; [exact C|]. split; [reflexivity|]. exists 0%nat. split; [apply nodes_head|]. split; [discriminate|].
      intros Hq R. exact (ei_live _ _ _ _ I b q Hb R Hq).
  Qed.
  (** following the offset of entry x *)
  Lemma ef_follow s ls Gn F b a x o j : einv s ls Gn F -> (b < bc)%nat -> nodes b !! a = Some x -> c_off s !! x = Some o -> next_entry x o = Some j ->
    (o = 0 /\ j = x) \/ (o <> 0 /\ nxt s x j /\ exists a', (a < a')%nat /\ nodes b !! a' = Some j /\ forall a'' y, (a < a'' < a')%nat -> nodes b !! a'' = Some y -> y ∈ Gn).
  Proof using All.
    intros I Hb Ha Ho Hn. unfold next_entry in Hn. destruct (0 <=? Z.of_nat x + o) eqn:E0; [|discriminate]. apply Z.leb_le in E0. injection Hn as <-.
    destruct (decide (o = 0)) as [-> |Hne]; [left; split; [reflexivity|lia]|]. right. split; [exact Hne|].
    assert (H : nxt s x (Z.to_nat (Z.of_nat x + o))) by (exists o; repeat split; [exact Ho|exact Hne|lia]). split; [exact H|]. exact (ef_nxt s ls Gn F I b a x _ Hb Ha H).
  Qed.
  Lemma prev_done s ls Gn F i t op rest c x prev pc : einv s ls Gn F -> ls !! i = Some t -> c_prog t = op :: rest -> c_pc t = pc -> (pc = POff c x prev \/ pc = PAdd c x prev) ->
    (match c with PEr2 p q true => q = prev -> nxt s q p | _ => True end) ->
    einv s (<[i := after_prev t c prev]> ls) Gn F.
  Proof using All.
    intros I Hi Ep Epc Hpc Hx. pose proof (ei_tk _ _ _ _ I t (elem_of_list_lookup_2 _ _ _ Hi)) as [T T2]. rewrite Ep, Epc in T2.
    set (k := op_key kf op) in *. set (b := bkt k) in *. destruct c as [p|p q same]; cbn [after_prev].
    - assert (T3 : is_er op = true /\ p ∈ nodes b /\ p <> b /\ prev = x /\ x ∈ nodes b) by (destruct Hpc as [-> | ->]; exact T2). destruct T3 as (H1 & H2 & H3 & -> & H4).
      apply (go_local s ls Gn F i t op rest pc); auto; try (destruct Hpc as [-> | ->]; exact Logic.I || reflexivity). cbn [kn]. auto.
    - assert (T3 : kn s Gn (is_er op) b k (POff (PEr2 p q same) x prev)) by (destruct Hpc as [-> | ->]; exact T2). cbn [kn] in T3. destruct T3 as (B & -> & a & Ha & H1 & H2).
      destruct same; cbn [andb].
      + destruct (decide (q = x)) as [-> |Hne]; [rewrite bool_decide_true by reflexivity|rewrite bool_decide_false by exact Hne].
        * apply (go_local s ls Gn F i t op rest pc); auto; try (destruct Hpc as [-> | ->]; exact Logic.I || reflexivity). cbn [kn]. split; [exact B|]. split; [apply H1; reflexivity|]. split; [|apply Hx; reflexivity].
          intros Hc. apply (H2 Hc). apply rtc_refl.
        * apply (go_local s ls Gn F i t op rest pc); auto; try (destruct Hpc as [-> | ->]; exact Logic.I || reflexivity).
      + apply (go_local s ls Gn F i t op rest pc); auto; try (destruct Hpc as [-> | ->]; exact Logic.I || reflexivity).
  Qed.
  (** a thread that holds the lock of a hit entry in the list knows that it is linked *)
  Lemma ef_hit_linked s ls Gn F i t k p : einv s ls Gn F -> ls !! i = Some t -> p ∈ locks_of (c_pc t) -> (forall q, c_pc t <> XReset p q) -> hit s k p -> p ∉ Gn.
  Proof using All. intros I Hi Hp Hne [Ho _]. exact (ef_locked_linked s ls Gn F I i t p Hi Hp Ho Hne). Qed.
  (** *** every step *)
  Definition evo s Gn s' Gn' t : Prop :=
    (Gn' = Gn /\ c_occ s' = c_occ s /\ c_off s' = c_off s) \/
    exists p k rest, c_prog t = CErase k :: rest /\ hit s k p /\ p ∈ nodes (bkt k) /\ (p ∉ Gn \/ exists q, c_pc t = XReset p q) /\
      (Gn' = Gn \/ Gn' = p :: Gn) /\ (forall x, x <> p -> lk (c_occ s') x = lk (c_occ s) x) /\ (forall x, lk (c_occ s') x = true -> lk (c_occ s) x = true) /\
      (forall x y, nxt s' x y -> rtc (nxt s) x y).
  Lemma ustep_bkt t op rest : c_prog t = op :: rest -> bucket_of hash bc (op_key kf op) = Some (bkt (op_key kf op)).
  Proof using All. intros _. apply (bucket_of_bkt hash keq bc E keq_refl keq_sym keq_trans Hhash Hbc HE Hmax). Qed.
  Lemma estep_inv s ls Gn F i t s' t' : einv s ls Gn F -> ls !! i = Some t -> estep kf hash keq bc E i s t = Some (s', t') ->
    exists Gn' F', einv s' (<[i := t']> ls) Gn' F' /\ evo s Gn s' Gn' t.
  Proof using All.
    intros I Hi Hst. assert (Hin : t ∈ ls) by (eapply elem_of_list_lookup_2; exact Hi).
    destruct (ei_tk _ _ _ _ I t Hin) as [T T2]. destruct (c_prog t) as [|op rest] eqn:Ep.
    { unfold estep in Hst. rewrite T2 in Hst. unfold ustep in Hst. rewrite Ep in Hst. discriminate. }
    pose proof (ustep_bkt t op rest Ep) as EB. assert (He : ecall_ok op) by (apply T; left).
    set (k := op_key kf op) in *. set (b := bkt k) in *. assert (Hb : (b < bc)%nat) by apply bkt_range.
    assert (Hbn : b ∈ nodes b) by (eapply elem_of_list_lookup_2; apply nodes_head).
    assert (Hq : forall s1 t1, c_occ s1 = c_occ s -> c_off s1 = c_off s -> einv s1 (<[i := t1]> ls) Gn F -> exists Gn' F', einv s1 (<[i := t1]> ls) Gn' F' /\ evo s Gn s1 Gn' t).
    { intros s1 t1 H1 H2 H3. exists Gn, F. split; [exact H3|]. left. auto. }
    unfold estep in Hst. destruct (c_pc t) as [| | |c x|c x|c x|c x|c x|c x|c x prev|c x prev| | | | | | |r|e|e q|e p|e p|e p|e p|e p|e r|p|p|p|p|p ok|p q|p q|p|p q|p q|p q o|p q o|p q|p q|p q|p q y|p q ok|q ok] eqn:Epc;
      cbn [kn] in T2; try contradiction; unfold ustep in Hst; try rewrite Ep in Hst; try (fold k in Hst; rewrite EB in Hst); try rewrite Epc in Hst.
    - (* UIdle *) injection Hst as <- <-. apply Hq; [reflexivity..|]. destruct op as [v|k0|k0]; [contradiction|..]; apply (go_local s ls Gn F i t _ rest UIdle _ I Hi Ep Epc); try exact Logic.I; try reflexivity; cbn [kn is_er ctx];
      (split; [reflexivity|]; exists 0%nat; split; [apply nodes_head|]; intros a' x H; lia).
    - (* FOcc *) destruct (c_occ s !! x) as [[]|] eqn:Eo; [..|discriminate]; injection Hst as <- <-; apply Hq; try reflexivity; destruct T2 as (C & a & Ha & Hcl).
      + assert (Ho : lk (c_occ s) x = true) by (unfold lk; rewrite Eo; reflexivity).
        apply (go_local s ls Gn F i t op rest (FOcc c x) (FVal c x) I Hi Ep Epc); try exact Logic.I; try reflexivity. cbn [kn]. split; [exact C|]. split; [exact (ei_occ _ _ _ _ I x Ho)|]. split; [auto|]. eauto.
      + apply (go_local s ls Gn F i t op rest (FOcc c x) (FOff c x) I Hi Ep Epc); try exact Logic.I; try reflexivity. cbn [kn]. split; [exact C|]. exists a. split; [exact Ha|]. apply (cleared_S _ _ _ _ _ _ Ha Hcl). right; left. unfold lk. rewrite Eo. reflexivity.
    - (* FVal *) pose proof T2 as (C & [v Hv] & Hh & a & Ha & Hcl). assert (Ev : c_values s !! x = Some (Some v)) by (rewrite (ei_val _ _ _ _ I); apply Hv).
      rewrite Ev in Hst. injection Hst as <- <-. apply Hq; [reflexivity..|]. destruct (keq (kf v) k) eqn:Ek.
      + exact (find_some s ls Gn F i t op rest c x v I Hi Ep Epc Hv Ek).
      + apply (go_local s ls Gn F i t op rest (FVal c x) (FOff c x) I Hi Ep Epc); try exact Logic.I; try reflexivity. cbn [kn]. split; [exact C|]. exists a. split; [exact Ha|]. apply (cleared_S _ _ _ _ _ _ Ha Hcl). right; right. intros v' Hv'. rewrite (st0_fun _ _ _ Hv' Hv). exact Ek.
    - (* FOff *) destruct (c_off s !! x) as [o|] eqn:Eo; [|discriminate]. injection Hst as <- <-. apply Hq; [reflexivity..|]. destruct (o =? 0).
      + exact (find_none s ls Gn F i t op rest c x I Hi Ep Epc).
      + apply (go_local s ls Gn F i t op rest (FOff c x) (FAdd c x) I Hi Ep Epc); try exact Logic.I; try reflexivity. exact T2.
    - (* FAdd *) destruct (c_off s !! x) as [o|] eqn:Eo; [|discriminate]. destruct (next_entry x o) as [j|] eqn:Ej; [|discriminate]. injection Hst as <- <-. apply Hq; [reflexivity..|].
      destruct T2 as (C & a & Ha & Hcl). apply (go_local s ls Gn F i t op rest (FAdd c x) (FOcc c j) I Hi Ep Epc); try exact Logic.I; try reflexivity. cbn [kn]. split; [exact C|].
      destruct (ef_follow s ls Gn F b a x o j I Hb Ha Eo Ej) as [[_ ->]|(_ & _ & a' & H1 & H2 & H3)].
      + exists a. split; [exact Ha|]. intros a' y Hlt. apply Hcl. lia.
      + exists a'. split; [exact H2|]. intros a2 y Hlt Hy. destruct (decide (a2 < S a)%nat); [apply (Hcl a2 y); [lia|exact Hy]|]. left. apply (H3 a2 y); [lia|exact Hy].
    - (* POff *) destruct (c_off s !! x) as [o|] eqn:Eo; [|discriminate]. injection Hst as <- <-. apply Hq; [reflexivity..|]. destruct (o =? 0) eqn:E0.
      + apply Z.eqb_eq in E0. subst o. apply (prev_done s ls Gn F i t op rest c x prev _ I Hi Ep Epc); [left; reflexivity|]. destruct c as [p|p q [|]]; try exact Logic.I.
        destruct T2 as (B & -> & a & Ha & H1 & _). destruct (H1 eq_refl) as (Hh & a' & Hlt & Ha'). exfalso.
        assert (Hl : p ∉ Gn). { eapply (ef_hit_linked s ls Gn F i t k p); eauto; rewrite Epc; [left|discriminate]. }
        destruct (ei_next _ _ _ _ I b a x Hb Ha) as (o' & Eo' & Hc). rewrite Eo in Eo'. injection Eo' as <-. destruct Hc as [[_ Hc]|(a1 & j & H2 & H3 & H4 & _)]; [apply Hl, (Hc a' p Hlt Ha')|].
        assert (j = x) as -> by lia. pose proof (ef_idx s ls Gn F I b a a1 x Hb Ha H3). lia.
      + apply (go_local s ls Gn F i t op rest (POff c x prev) (PAdd c x prev) I Hi Ep Epc); try exact Logic.I; try reflexivity. exact T2.
    - (* PAdd *) destruct (c_off s !! x) as [o|] eqn:Eo; [|discriminate]. destruct (next_entry x o) as [j|] eqn:Ej; [|discriminate]. injection Hst as <- <-. apply Hq; [reflexivity..|].
      destruct (decide (j = entry_of c)) as [Hj|Hj]; [rewrite bool_decide_true by exact Hj|rewrite bool_decide_false by exact Hj].
      + apply (prev_done s ls Gn F i t op rest c x prev _ I Hi Ep Epc); [right; reflexivity|]. destruct c as [p|p q [|]]; try exact Logic.I. cbn [entry_of] in Hj. subst j. intros ->.
        destruct T2 as ((_ & _ & _ & _ & B) & -> & a & Ha & _). destruct (ef_follow s ls Gn F b a x o p I Hb Ha Eo Ej) as [[_ H]|(_ & H & _)]; [congruence|exact H].
      + apply (go_local s ls Gn F i t op rest (PAdd c x prev) (POff c j j) I Hi Ep Epc); try exact Logic.I; try reflexivity. destruct c as [p|p q same]; cbn [kn entry_of] in *.
        * destruct T2 as (H1 & H2 & H3 & -> & H4). apply elem_of_list_lookup in H4 as [a Ha]. split; [exact H1|]. split; [exact H2|]. split; [exact H3|]. split; [reflexivity|].
          destruct (ef_follow s ls Gn F b a x o j I Hb Ha Eo Ej) as [[_ ->]|(_ & _ & a' & _ & H5 & _)]; eapply elem_of_list_lookup_2; eassumption.
        * destruct T2 as (B & -> & a & Ha & H1 & H2). split; [exact B|]. split; [reflexivity|].
          destruct (ef_follow s ls Gn F b a x o j I Hb Ha Eo Ej) as [[_ ->]|(_ & Hn & a1 & H3 & H4 & H5)]; [eauto|]. exists a1. split; [exact H4|]. split.
          -- intros Hs. destruct (H1 Hs) as (Hh & a' & H6 & H7). split; [exact Hh|]. exists a'. split; [|exact H7].
             assert (Hl : p ∉ Gn). { eapply (ef_hit_linked s ls Gn F i t k p); eauto; rewrite Epc; [left|discriminate]. }
             destruct (decide (a1 < a')%nat); [assumption|]. destruct (decide (a1 = a')) as [-> |]; [rewrite H4 in H7; congruence|]. destruct Hl. apply (H5 a' p); [lia|exact H7].
          -- intros Hg R. apply (H2 Hg). eapply rtc_l; eassumption.
    - (* XLockB *) destruct T2 as [T2 ->]. destruct op as [v|k0|k0]; [contradiction| |discriminate T2]. destruct (c_locks s !! b) as [[]|] eqn:El; [..|discriminate]; injection Hst as <- <-; apply Hq; try reflexivity.
      + apply (go_local s ls Gn F i t (CErase k0) rest (XLockB b) (FOcc FEr1 b) I Hi Ep Epc); try exact Logic.I; try reflexivity. cbn [kn]. split; [reflexivity|]. exists 0%nat. split; [apply nodes_head|]. intros a' x H; lia.
      + apply (go_lock s ls Gn F i t (CErase k0) rest (XLockB b) (FOcc (FErB b) b) b true I Hi Ep Epc); try exact Logic.I; try reflexivity; [exact (nodes_range b b Hb Hbn)|unfold lk; rewrite El; reflexivity|].
        cbn [kn]. split; [split; reflexivity|]. exists 0%nat. split; [apply nodes_head|]. intros a' x H; lia.
    - (* XResetB *) destruct T2 as (T2 & -> & Hh). destruct op as [v|k0|k0]; [contradiction| |discriminate T2]. destruct (c_occ s !! b) as [b0|]; [|discriminate]. injection Hst as <- <-. exists Gn, F. destruct Hh as (Ho & v & Hv & Hk).
      split.
      + apply (step_reset s ls Gn F i t (XCntB b) b k0 rest v I Hi Ep); auto; rewrite ?Epc; try reflexivity; try discriminate; try (left; reflexivity).
        * intros Hx. apply excess_node in Hx as (? & _ & _ & _ & Hr). lia.
        * unfold ehand. rewrite Epc. reflexivity.
        * unfold eproj. rewrite Epc. reflexivity.
        * unfold epend. rewrite Epc. reflexivity.
        * cbn [kn]. eauto.
      + right. exists b, k0, rest. split; [exact Ep|]. split; [split; eauto|]. split; [exact Hbn|]. split; [left; exact (ef_head_live s ls Gn F I b Hb)|]. split; [left; reflexivity|].
        assert (Hocc : forall x, lk (c_occ (put_occ s b false)) x = if decide (x = b) then false else lk (c_occ s) x) by (intros x; apply lk_insert, (lk_lt _ _ Ho)).
        split; [intros x Hx; rewrite Hocc; rewrite decide_False by exact Hx; reflexivity|]. split; [intros x; rewrite Hocc; case_decide; [discriminate|auto]|]. intros x y H. apply rtc_once. exact H.
    - (* XCntB *) destruct T2 as (T2 & -> & Hv). destruct op as [v|k0|k0]; [contradiction| |discriminate T2]. injection Hst as <- <-. apply Hq; [reflexivity..|].
      apply (eupd_quiet s ls Gn F i t); auto; cbn [put_count c_values c_occ c_off c_ex c_locks c_count]; try reflexivity.
      + apply (ei_ll _ _ _ _ I).
      + unfold ehand. rewrite Epc. reflexivity.
      + intros x. unfold resetting. rewrite Epc. reflexivity.
      + unfold eproj. rewrite Epc. reflexivity.
      + intros p _. unfold eholds. rewrite Epc. cbn [cgo c_pc locks_of]. lia.
      + unfold epend. rewrite Epc. cbn [cgo c_pc]. lia.
      + intros k1. exact (cgo_succ t _ rest _ (XDesB b) k1 Ep Epc eq_refl).
      + exact (cgo_run t _ (XDesB b) _ Epc eq_refl).
      + apply (cgo_tk s Gn t (CErase k0) rest (XDesB b) Ep); [rewrite Ep; exact T|]. cbn [kn]. auto.
    - (* XDesB *) destruct T2 as (T2 & -> & v & Hv). destruct op as [v0|k0|k0]; [contradiction| |discriminate T2].
      assert (Ev : c_values s !! b = Some (Some v)) by (rewrite (ei_val _ _ _ _ I); apply Hv). rewrite Ev in Hst. injection Hst as <- <-. apply Hq; [reflexivity..|].
      apply (go_local s ls Gn F i t (CErase k0) rest (XDesB b) (XUnlB b true) I Hi Ep Epc); try exact Logic.I; try reflexivity. cbn [kn]. auto.
    - (* XUnlB *) destruct T2 as [T2 ->]. destruct op as [v0|k0|k0]; [contradiction| |discriminate T2]. destruct (c_locks s !! b) as [b0|]; [|discriminate]. injection Hst as <- <-. apply Hq; [reflexivity..|].
      destruct (ef_held s ls Gn F i t b I Hi ltac:(rewrite Epc; left)) as [Hr Hl]. destruct ok.
      + apply (fin_unlock s ls Gn F i t k0 rest b I Hi Ep); rewrite ?Epc; try exact Logic.I; try reflexivity; assumption.
      + apply (go_lock s ls Gn F i t (CErase k0) rest (XUnlB b false) (FOcc FEr1 b) b false I Hi Ep Epc); try exact Logic.I; try reflexivity; try assumption.
        cbn [kn]. split; [reflexivity|]. exists 0%nat. split; [apply nodes_head|]. intros a' x H; lia.
    - (* XLock1 *) destruct T2 as (T2 & H1 & H2 & H3). destruct op as [v0|k0|k0]; [contradiction| |discriminate T2]. destruct (c_locks s !! p) as [[]|] eqn:El; [..|discriminate]; injection Hst as <- <-; apply Hq; try reflexivity.
      + apply (go_local s ls Gn F i t (CErase k0) rest (XLock1 p q) (FOcc FEr1 b) I Hi Ep Epc); try exact Logic.I; try reflexivity. cbn [kn]. split; [reflexivity|]. exists 0%nat. split; [apply nodes_head|]. intros a' x H; lia.
      + apply (go_lock s ls Gn F i t (CErase k0) rest (XLock1 p q) (XLock2 p q) p true I Hi Ep Epc); try exact Logic.I; try reflexivity; [exact (nodes_range b p Hb H1)|unfold lk; rewrite El; reflexivity|].
        cbn [kn]. auto.
    - (* XLock2 *) destruct T2 as (T2 & H1 & H2 & H3). destruct op as [v0|k0|k0]; [contradiction| |discriminate T2]. destruct (c_locks s !! q) as [[]|] eqn:El; [..|discriminate]; injection Hst as <- <-; apply Hq; try reflexivity.
      + apply (go_local s ls Gn F i t (CErase k0) rest (XLock2 p q) (XBack p) I Hi Ep Epc); try exact Logic.I; try reflexivity. cbn [kn]. auto.
      + assert (Hpq : p <> q). { intros <-. destruct (ef_held s ls Gn F i t p I Hi ltac:(rewrite Epc; left)) as [_ Hl]. unfold lk in Hl. rewrite El in Hl. discriminate. }
        apply (go_lock s ls Gn F i t (CErase k0) rest (XLock2 p q) (FOcc (FErL p q) b) q true I Hi Ep Epc); try exact Logic.I; try reflexivity; [exact (nodes_range b q Hb H3)|unfold lk; rewrite El; reflexivity|apply perm_swap|].
        cbn [kn]. split; [split; auto|]. exists 0%nat. split; [apply nodes_head|]. intros a' x H; lia.
    - (* XBack *) destruct T2 as (T2 & H1). destruct op as [v0|k0|k0]; [contradiction| |discriminate T2]. destruct (c_locks s !! p) as [b0|]; [|discriminate]. injection Hst as <- <-. apply Hq; [reflexivity..|].
      destruct (ef_held s ls Gn F i t p I Hi ltac:(rewrite Epc; left)) as [Hr Hl].
      apply (go_lock s ls Gn F i t (CErase k0) rest (XBack p) (FOcc FEr1 b) p false I Hi Ep Epc); try exact Logic.I; try reflexivity; try assumption.
      cbn [kn]. split; [reflexivity|]. exists 0%nat. split; [apply nodes_head|]. intros a' x H; lia.
    - (* XTest *) destruct (c_off s !! p) as [o|] eqn:Eo; [|discriminate]. injection Hst as <- <-. apply Hq; [reflexivity..|]. destruct (o =? 0) eqn:E0.
      + apply Z.eqb_eq in E0. subst o. apply (go_local s ls Gn F i t op rest (XTest p q) (XPut p q 0) I Hi Ep Epc); try exact Logic.I; try reflexivity. cbn [kn]. split; [exact T2|].
        destruct T2 as (_ & _ & _ & qo & Hqo & _). exists 0, qo. auto.
      + apply Z.eqb_neq in E0. apply (go_local s ls Gn F i t op rest (XTest p q) (XAdd1 p q) I Hi Ep Epc); try exact Logic.I; try reflexivity. cbn [kn]. split; [exact T2|]. rewrite Eo. congruence.
    - (* XAdd1 *) destruct (c_off s !! p) as [o|] eqn:Eo; [|discriminate]. injection Hst as <- <-. apply Hq; [reflexivity..|]. destruct T2 as [T2 Hne].
      apply (go_local s ls Gn F i t op rest (XAdd1 p q) (XAdd2 p q o) I Hi Ep Epc); try exact Logic.I; try reflexivity. cbn [kn]. split; [exact T2|]. split; [exact Eo|]. congruence.
    - (* XAdd2 *) destruct (c_off s !! q) as [qo|] eqn:Eo; [|discriminate]. injection Hst as <- <-. apply Hq; [reflexivity..|]. destruct T2 as (T2 & Hpo & Hne).
      apply (go_local s ls Gn F i t op rest (XAdd2 p q o) (XPut p q (qo + o)) I Hi Ep Epc); try exact Logic.I; try reflexivity. cbn [kn]. split; [exact T2|]. exists o, qo. rewrite (proj2 (Z.eqb_neq _ _) Hne). auto.
    - (* XPut *) destruct (c_off s !! q) as [qo|]; [|discriminate]. injection Hst as <- <-. pose proof T2 as ((B & Hh & _) & _). pose proof B as (T3 & B1 & _). destruct op as [v0|k0|k0]; [contradiction| |discriminate T3].
      destruct (step_unlink s ls Gn F i t p q o k0 rest I Hi Ep Epc) as [J Hs]. exists (p :: Gn), F. split; [exact J|]. right. exists p, k0, rest. split; [exact Ep|]. split; [exact Hh|]. split; [exact B1|]. split.
      { left. eapply (ef_hit_linked s ls Gn F i t k0 p); eauto; rewrite Epc; [left|discriminate]. }
      split; [right; reflexivity|]. split; [reflexivity|]. split; [auto|exact Hs].
    - (* XReset *) destruct T2 as (B & Hg & v & Hv & Hk). pose proof B as (T3 & B1 & B2 & _). destruct op as [v0|k0|k0]; [contradiction| |discriminate T3]. destruct (c_occ s !! p) as [b0|]; [|discriminate]. injection Hst as <- <-. exists Gn, F.
      assert (Ho : lk (c_occ s) p = true).
      { pose proof (ei_occx _ _ _ _ I p (ei_gn _ _ _ _ I p Hg)) as H. rewrite decide_True in H by exact Hg.
        pose proof (sumZ_ge_elem (resetting p) ls i t) as H1. assert (H2 : resetting p t = 1) by (unfold resetting; rewrite Epc; apply at_same).
        specialize (H1 ltac:(intros l _; unfold resetting; destruct (c_pc l); try lia; apply at_nonneg) Hi). destruct (lk (c_occ s) p); [reflexivity|]. cbn in H. lia. }
      split.
      + apply (step_reset s ls Gn F i t (XCnt p q) p k0 rest v I Hi Ep); auto; rewrite ?Epc; try reflexivity; try discriminate; try (left; reflexivity).
        * intros _. split; [exact Hg|]. eauto.
        * intros x q0 H. injection H as <- <-. split; [reflexivity|]. exact (ei_gn _ _ _ _ I p Hg).
        * unfold ehand. rewrite Epc. reflexivity.
        * unfold eproj. rewrite Epc. reflexivity.
        * unfold epend. rewrite Epc. reflexivity.
        * cbn [kn]. auto.
      + right. exists p, k0, rest. split; [exact Ep|]. split; [split; eauto|]. split; [exact B1|]. split; [right; eauto|]. split; [left; reflexivity|].
        assert (Hocc : forall x, lk (c_occ (put_occ s p false)) x = if decide (x = p) then false else lk (c_occ s) x) by (intros x; apply lk_insert, (lk_lt _ _ Ho)).
        split; [intros x Hx; rewrite Hocc; rewrite decide_False by exact Hx; reflexivity|]. split; [intros x; rewrite Hocc; case_decide; [discriminate|auto]|]. intros x y H. apply rtc_once. exact H.
    - (* XCnt *) destruct T2 as [B Hg]. pose proof B as (T3 & B1 & B2 & _). destruct op as [v|k0|k0]; [contradiction| |discriminate T3]. injection Hst as <- <-. apply Hq; [reflexivity..|].
      apply (eupd_quiet s ls Gn F i t); auto; cbn [put_count c_values c_occ c_off c_ex c_locks c_count]; try reflexivity.
      + apply (ei_ll _ _ _ _ I).
      + unfold ehand. rewrite Epc. reflexivity.
      + intros x. unfold resetting. rewrite Epc. reflexivity.
      + unfold eproj. rewrite Epc. reflexivity.
      + intros x _. unfold eholds. rewrite Epc. cbn [cgo c_pc locks_of]. lia.
      + unfold epend. rewrite Epc. cbn [cgo c_pc]. lia.
      + intros k1. exact (cgo_succ t _ rest _ (XDes p q) k1 Ep Epc eq_refl).
      + exact (cgo_run t _ (XDes p q) _ Epc eq_refl).
      + apply (cgo_tk s Gn t (CErase k0) rest (XDes p q) Ep); [rewrite Ep; exact T|]. cbn [kn]. split; [exact B|]. split; [exact Hg|]. apply (nodes_excess b p Hb B1 B2).
    - (* XDes *) destruct T2 as (B & Hg & v & Hv). pose proof B as (T3 & B1 & B2 & _). destruct op as [v0|k0|k0]; [contradiction| |discriminate T3].
      assert (Ev : c_values s !! p = Some (Some v)) by (rewrite (ei_val _ _ _ _ I); apply Hv). rewrite Ev in Hst. injection Hst as <- <-. apply Hq; [reflexivity..|].
      assert (Hx : (eproj <$> ls) !! i = Some (fresh_call [])) by (rewrite list_lookup_fmap, Hi; cbn; unfold eproj; rewrite Epc; reflexivity).
      apply (eupd s ls Gn F i t); auto; try solve [apply I]; try reflexivity; try lia.
      + split; [apply (ei_lf _ _ _ _ I)|]. split; [apply (ei_lo _ _ _ _ I)|apply (ei_ll _ _ _ _ I)].
      + unfold ehand. rewrite Epc. reflexivity.
      + intros x _. unfold resetting. rewrite Epc. cbn [cgo c_pc]. lia.
      + intros x _. unfold eholds. rewrite Epc. cbn [cgo c_pc locks_of]. lia.
      + unfold epend. rewrite Epc. cbn [cgo c_pc]. lia.
      + pose proof (inv_reset E _ _ _ i (fresh_call []) [QPush KPushBack (Z.of_nat p)] (ei_vec _ _ _ _ I) Hx eq_refl ltac:(intros o Ho; apply elem_of_list_singleton in Ho as ->; reflexivity)) as J.
        eapply inv_ext; [|exact J]. intros w. cbn beta. change (pushed_by (q_log (fresh_call []))) with (@nil Z). change (popped_by (q_log (fresh_call []))) with (@nil Z). cbn [sumZ]. lia.
      + unfold eproj. rewrite Epc. cbn [cgo c_pc]. rewrite bal_fresh, (bal_push (push_call p) p eq_refl eq_refl). cbn. lia.
      + intros p0 v0 _. rewrite (cgo_succ t _ rest _ (XPush p q (push_call p)) (kf v0) Ep Epc eq_refl). lia.
      + exact (cgo_run t _ (XPush p q (push_call p)) _ Epc eq_refl).
      + apply (cgo_tk s Gn t (CErase k0) rest _ Ep); [rewrite Ep; exact T|]. cbn [kn]. auto.
      + intros j tj _ _. apply mono_same; reflexivity.
    - (* XPush *) destruct T2 as (B & Hg & _). pose proof B as (T3 & B1 & B2 & _). destruct op as [v0|k0|k0]; [contradiction| |discriminate T3].
      destruct (qstep (vctl E) i (c_ex s) y) as [[z y']|] eqn:Eq; [|discriminate]. injection Hst as <- <-.
      destruct (step_push s ls Gn F i t p q y z y' k0 rest I Hi Ep Epc Eq) as [F' J]. exists Gn, F'. split; [exact J|]. left. auto.
    - (* XUnl1 *) pose proof T2 as (T3 & B1 & B2 & B3 & B4). destruct op as [v0|k0|k0]; [contradiction| |discriminate T3]. destruct (c_locks s !! p) as [b0|]; [|discriminate]. injection Hst as <- <-. apply Hq; [reflexivity..|].
      destruct (ef_held s ls Gn F i t p I Hi ltac:(rewrite Epc; left)) as [Hr Hl].
      apply (go_lock s ls Gn F i t (CErase k0) rest (XUnl1 p q ok) (XUnl2 q ok) p false I Hi Ep Epc); try exact Logic.I; try reflexivity; try assumption.
      cbn [kn]. auto.
    - (* XUnl2 *) destruct T2 as [T2 H1]. destruct op as [v0|k0|k0]; [contradiction| |discriminate T2]. destruct (c_locks s !! q) as [b0|]; [|discriminate]. injection Hst as <- <-. apply Hq; [reflexivity..|].
      destruct (ef_held s ls Gn F i t q I Hi ltac:(rewrite Epc; left)) as [Hr Hl]. destruct ok.
      + apply (fin_unlock s ls Gn F i t k0 rest q I Hi Ep); rewrite ?Epc; try exact Logic.I; try reflexivity; assumption.
      + apply (go_lock s ls Gn F i t (CErase k0) rest (XUnl2 q false) (FOcc FEr1 b) q false I Hi Ep Epc); try exact Logic.I; try reflexivity; try assumption.
        cbn [kn]. split; [reflexivity|]. exists 0%nat. split; [apply nodes_head|]. intros a' x H; lia.
  Qed.
  (** *** every access is defined *)
  Lemma estep_some s ls Gn F i t : einv s ls Gn F -> ls !! i = Some t -> c_prog t <> [] -> estep kf hash keq bc E i s t <> None.
  Proof using All.
    intros I Hi Hne. assert (Hin : t ∈ ls) by (eapply elem_of_list_lookup_2; exact Hi).
    destruct (ei_tk _ _ _ _ I t Hin) as [T T2]. destruct (c_prog t) as [|op rest] eqn:Ep; [congruence|].
    pose proof (ustep_bkt t op rest Ep) as EB. assert (He : ecall_ok op) by (apply T; left).
    set (k := op_key kf op) in *. set (b := bkt k) in *. assert (Hb : (b < bc)%nat) by apply bkt_range.
    assert (Ho : forall x, x ∈ nodes b -> exists o, c_occ s !! x = Some o) by (intros x Hx; apply lookup_lt_is_Some_2; rewrite (ei_lo _ _ _ _ I); exact (nodes_range b x Hb Hx)).
    assert (Hf : forall x, x ∈ nodes b -> exists o, c_off s !! x = Some o) by (intros x Hx; apply lookup_lt_is_Some_2; rewrite (ei_lf _ _ _ _ I); exact (nodes_range b x Hb Hx)).
    assert (Hl : forall x, x ∈ nodes b -> exists o, c_locks s !! x = Some o) by (intros x Hx; apply lookup_lt_is_Some_2; rewrite (ei_ll _ _ _ _ I); exact (nodes_range b x Hb Hx)).
    assert (Hnx : forall x o, c_off s !! x = Some o -> exists j, next_entry x o = Some j). { intros x o H. pose proof (ei_off _ _ _ _ I x o H). unfold next_entry. rewrite (proj2 (Z.leb_le _ _)) by lia. eauto. }
    assert (Hlks : forall x, x ∈ locks_of (c_pc t) -> exists o, c_locks s !! x = Some o).
    { intros x Hx. destruct (ef_locks s ls Gn F I t x Hin Hx) as (_ & _ & _ & Hr). apply lookup_lt_is_Some_2. rewrite (ei_ll _ _ _ _ I). exact Hr. }
    assert (Hbn : b ∈ nodes b) by (eapply elem_of_list_lookup_2; apply nodes_head).
    unfold estep. destruct (c_pc t) as [| | |c x|c x|c x|c x|c x|c x|c x prev|c x prev| | | | | | |r|e|e q|e p|e p|e p|e p|e p|e r|p|p|p|p|p ok|p q|p q|p|p q|p q|p q o|p q o|p q|p q|p q|p q y|p q ok|q ok] eqn:Epc;
      cbn [kn] in T2; try contradiction; unfold ustep; rewrite Ep; fold k; rewrite ?EB; rewrite ?Epc; try discriminate.
    - destruct T2 as (_ & a & Ha & _). destruct (Ho x (elem_of_list_lookup_2 _ _ _ Ha)) as [o ->]. discriminate.
    - destruct T2 as (_ & [v Hv] & _). rewrite (ei_val _ _ _ _ I), (proj1 Hv). discriminate.
    - destruct T2 as (_ & a & Ha & _). destruct (Hf x (elem_of_list_lookup_2 _ _ _ Ha)) as [o ->]. discriminate.
    - destruct T2 as (_ & a & Ha & _). destruct (Hf x (elem_of_list_lookup_2 _ _ _ Ha)) as [o Eo]. rewrite Eo. destruct (Hnx x o Eo) as [j ->]. discriminate.
    - assert (Hx : x ∈ nodes b) by (destruct c; [apply T2|destruct T2 as (_ & _ & a & Ha & _); eapply elem_of_list_lookup_2; exact Ha]). destruct (Hf x Hx) as [o ->]. discriminate.
    - assert (Hx : x ∈ nodes b) by (destruct c; [apply T2|destruct T2 as (_ & _ & a & Ha & _); eapply elem_of_list_lookup_2; exact Ha]). destruct (Hf x Hx) as [o Eo]. rewrite Eo. destruct (Hnx x o Eo) as [j ->]. discriminate.
    - destruct T2 as [_ ->]. destruct (Hl b Hbn) as [[] ->]; discriminate.
    - destruct T2 as (_ & -> & _). destruct (Ho b Hbn) as [o ->]; discriminate.
    - destruct T2 as (_ & _ & v & Hv). rewrite (ei_val _ _ _ _ I), (proj1 Hv). discriminate.
    - destruct (Hlks p ltac:(left)) as [o ->]. discriminate.
    - destruct T2 as (_ & H & _). destruct (Hl p H) as [[] ->]; discriminate.
    - destruct T2 as (_ & _ & _ & H). destruct (Hl q H) as [[] ->]; discriminate.
    - destruct (Hlks p ltac:(left)) as [o ->]. discriminate.
    - destruct T2 as ((_ & H & _) & _). destruct (Hf p H) as [o ->]. discriminate.
    - destruct T2 as (((_ & H & _) & _) & _). destruct (Hf p H) as [o ->]. discriminate.
    - destruct T2 as (((_ & _ & _ & H & _) & _) & _). destruct (Hf q H) as [o' ->]. discriminate.
    - destruct T2 as (((_ & _ & _ & H & _) & _) & _). destruct (Hf q H) as [o' ->]. discriminate.
    - destruct T2 as ((_ & H & _) & _). destruct (Ho p H) as [o ->]. discriminate.
    - destruct T2 as (_ & _ & v & Hv). rewrite (ei_val _ _ _ _ I), (proj1 Hv). discriminate.
    - destruct T2 as (_ & _ & H1 & _). destruct (not_stuck (vctl E) E vm (fun _ => True) _ _ _ i y (ei_vec _ _ _ _ I)) as (z & y' & Eq).
      + rewrite list_lookup_fmap, Hi. cbn. unfold eproj. rewrite Epc. reflexivity.
      + rewrite H1. discriminate.
      + rewrite Eq. discriminate.
    - destruct (Hlks p ltac:(left)) as [o ->]. discriminate.
    - destruct (Hlks q ltac:(left)) as [o ->]. discriminate.
  Qed.
End einv.
