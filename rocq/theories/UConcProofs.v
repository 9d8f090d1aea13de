(** Concurrent inserts and lookups on the unordered containers: the invariant. *)
From Verif Require Import Base Conc SlotModel SlotSpec SlotProofs VectorModel VectorProofs VectorConcProofs HashProofs UnorderedModel UnorderedSpec UnorderedProofs UConcModel.

Local Arguments pushed_by : simpl never.
Local Arguments popped_by : simpl never.

(** ** replacing an idle thread of the vector machine *)
Section vreset.
  Context (cap : nat).
  Notation vinv := (inv (T:=Z) (C:=Z) cap vm (fun _ => True)).
  Lemma inv_ext w0 w1 s ls : (forall w, w0 w = w1 w) -> vinv w0 s ls -> vinv w1 s ls.
  Proof. intros H I. destruct I. split; auto. intros w. rewrite <- H. auto. Qed.
  Definition fresh_call (prog : list (qop Z)) : qthread Z := {| q_prog := prog; q_pc := QIdle; q_log := [] |}.
  Lemma wpush_fresh w prog : wpush w (fresh_call prog) = 0.
  Proof. unfold wpush, push_in_flight, fresh_call. cbn. destruct prog as [|[]]; reflexivity. Qed.
  Lemma wpop_fresh w prog : wpop w (fresh_call prog) = 0.
  Proof. reflexivity. Qed.
  Lemma inv_reset w0 s ls i q prog : vinv w0 s ls -> ls !! i = Some q -> q_pc q = QIdle -> (forall op, op ∈ prog -> op_wf op) ->
    vinv (fun w => w0 w + sumZ w (pushed_by (q_log q)) - sumZ w (popped_by (q_log q))) s (<[i := fresh_call prog]> ls).
  Proof.
    intros I Hi Hpc Hwf.
    assert (HI : forall w, wpush w q = sumZ w (pushed_by (q_log q)) /\ wpop w q = sumZ w (popped_by (q_log q))).
    { intros w. unfold wpush, wpop, push_in_flight, pop_in_flight. rewrite Hpc. destruct (q_prog q) as [|[]]; rewrite ?app_nil_r; auto. }
    assert (Hz : forall f : qthread Z -> Z, f (fresh_call prog) = f q -> sumZ f (<[i := fresh_call prog]> ls) = sumZ f ls).
    { intros f Hf. rewrite (sumZ_insert _ _ _ _ _ Hi). lia. }
    assert (Hin : forall t, t ∈ <[i := fresh_call prog]> ls -> t = fresh_call prog \/ t ∈ ls).
    { intros t Ht. apply elem_of_list_lookup in Ht as [j Hj]. apply list_lookup_insert_Some in Hj as [(_ & <- & _)|[_ Hj]]; [left; reflexivity|right; eapply elem_of_list_lookup_2; exact Hj]. }
    destruct I. split; auto.
    - intros t Ht. destruct (Hin t Ht) as [-> |H]; [|auto]. split; [exact Hwf|exact Logic.I].
    - intros p Hp. rewrite Hz; [auto|]. unfold incs. rewrite Hpc. reflexivity.
    - intros p Hp. rewrite !Hz; [auto| |]; unfold pp, pq; rewrite Hpc; reflexivity.
    - intros p Hp. rewrite Hz; [auto|]. unfold lv. rewrite Hpc. reflexivity.
    - intros t Ht. destruct (Hin t Ht) as [-> |H]; [exact Logic.I|auto].
    - intros w. rewrite !(sumZ_insert _ _ _ _ _ Hi), wpush_fresh, wpop_fresh. destruct (HI w) as [-> ->]. specialize (i_cons w). lia.
  Qed.
End vreset.

Lemma lend_app p P Q : lend p (P ++ Q) = lend (lend p P) Q.
Proof. revert p. induction P as [|q P IH]; intros p; [reflexivity|]. cbn [app]. rewrite !lend_cons. apply IH. Qed.
(** the offset of a node of a list: 0 exactly at the end *)
Lemma linked_split off p P1 P2 : linked off p (P1 ++ P2) -> linked off (lend p P1) P2.
Proof. revert p. induction P1 as [|q P IH]; intros p; [auto|]. cbn [app linked]. rewrite lend_cons. intros (_ & _ & H). apply IH. exact H. Qed.

Section cinv.
  Context {K V : Type} (kf : V -> K) (hash : K -> Z) (keq : K -> K -> bool) (bc E : nat).
  Hypothesis keq_refl : forall a, keq a a = true.
  Hypothesis keq_sym : forall a b, keq a b = true -> keq b a = true.
  Hypothesis keq_trans : forall a b c, keq a b = true -> keq b c = true -> keq a c = true.
  Hypothesis Hhash : forall a b, keq a b = true -> hash a = hash b.
  Hypothesis Hbc : (0 < bc)%nat.
  Hypothesis HE : (0 < E)%nat.
  Hypothesis Hmax : Z.of_nat (bc + E) <= INT_MAX.
  Notation n := (bc + E)%nat.
  Notation bkt := (bkt hash bc).
  Implicit Types (s : cshared V) (t : cthread K V) (ls : list (cthread K V)) (G : list (option V * list (nat * V))) (F : list nat) (g : option V * list (nat * V)).

  Definition tkey (op : cop K V) : K := op_key kf op.
  Lemma bucket_of_bkt k : bucket_of hash bc k = Some (bkt k) /\ (bkt k < bc)%nat.
  Proof.
    destruct (fib_range (hash k) (Z.of_nat bc) ltac:(lia)) as (r & Er & Hr). unfold bucket_of, UnorderedProofs.bkt. rewrite Er. split; [reflexivity|lia].
  Qed.

  (** *** what a thread owns *)
  Definition tb t : nat := match c_prog t with op :: _ => bkt (tkey op) | [] => 0%nat end.
  Definition lock_of t : option nat :=
    match c_pc t with
    | FOcc FInsB _ | FVal FInsB _ | FOff FInsB _ | FAdd FInsB _ => Some (tb t)
    | FOcc (FInsL e _) _ | FVal (FInsL e _) _ | FOff (FInsL e _) _ | FAdd (FInsL e _) _ => Some e
    | EOff (EIns2 e) _ | EAdd (EIns2 e) _ => Some e
    | IOccB | IConB | ICntB | ISetB | IUnlB _ => Some (tb t)
    | IPop e _ | IConL e _ | IOffL e _ | ICntL e _ | ISetL e _ | ILinkL e _ | IUnlL e _ => Some e
    | _ => None
    end.
  Definition holds_lock (p : nat) t : Z := if decide (lock_of t = Some p) then 1 else 0.
  Definition lvc (p : nat) t : Z :=
    match c_pc t with
    | ICntB | ISetB => at_ p (tb t)
    | IOffL _ q | ICntL _ q | ISetL _ q => at_ p q
    | _ => 0
    end.
  Definition hand t : list nat := match c_pc t with IConL _ p | IOffL _ p | ICntL _ p | ISetL _ p | ILinkL _ p => [p] | _ => [] end.
  Definition pend t : Z := match c_pc t with ISetB | ISetL _ _ | ILinkL _ _ => 1 | _ => 0 end.
  Definition proj t : qthread Z := match c_pc t with IPop _ q => q | _ => fresh_call [] end.
  (** entries of completed successful inserts, and of those that only have to release their lock *)
  Definition logged t : list (nat * V) := omap (fun x => match x with (CInsert v, RInserted p) => Some (p, v) | _ => None end) (c_log t).
  Definition leaving t : list (nat * V) :=
    match c_prog t, c_pc t with
    | CInsert v :: _, IUnlB (Some p) | CInsert v :: _, IUnlL _ (Some p) => [(p, v)]
    | _, _ => []
    end.
  Definition ins t : list (nat * V) := logged t ++ leaving t.

  (** *** what a thread knows about the lists *)
  Definition nomatch (k : K) (M : list V) : Prop := forall w, w ∈ M -> keq (kf w) k = false.
  Definition coming g (b : nat) (k : K) (i : nat) : Prop := i = b \/ exists es1 w es2, g.2 = es1 ++ (i, w) :: es2 /\ nomatch k es1.*2.
  Definition seen g (b : nat) (k : K) (i : nat) : Prop := exists es1 es2, g.2 = es1 ++ es2 /\ lend b es1.*1 = i /\ nomatch k es1.*2.
  Definition headno g (k : K) : Prop := exists h, g.1 = Some h /\ keq (kf h) k = false.
  Definition isL (c : fctx) : bool := match c with FInsL _ _ => true | _ => false end.
  Definition ready g (b : nat) (k : K) (e : nat) : Prop := headno g k /\ nomatch k g.2.*2 /\ e = lend b (gpos g).
  Definition ctxok (c : fctx) g (b : nat) : Prop :=
    match c with
    | FUser => False
    | FIns1 | FInsB => True
    | FInsL e chk => g.1 <> None /\ e ∈ b :: gpos g /\ (chk = e -> e = lend b (gpos g))
    | _ => False
    end.
  Definition walk (c : fctx) g (b : nat) (k : K) (pc : upc) : Prop :=
    match pc with
    | FOcc _ i => coming g b k i /\ (isL c = true -> i = b \/ headno g k)
    | FVal _ i => coming g b k i /\ (isL c = true -> i = b \/ headno g k) /\ (i = b -> g.1 <> None)
    | FOff _ i => seen g b k i /\ (isL c = true -> headno g k)
    | FAdd _ i => seen g b k i /\ (isL c = true -> headno g k) /\ i <> lend b (gpos g)
    | _ => False
    end.
  Definition knows_ins g (b : nat) (k : K) (pc : upc) : Prop :=
    match pc with
    | UIdle | UFullCheck | UEmptyCheck | IOcc | ILockB | IUnlB _ => True
    | FOcc c _ | FVal c _ | FOff c _ | FAdd c _ => ctxok c g b /\ walk c g b k pc
    | EOff c i => g.1 <> None /\ i ∈ b :: gpos g /\ (forall e, c = EIns2 e -> e ∈ b :: gpos g)
    | EAdd c i => g.1 <> None /\ i ∈ b :: gpos g /\ (forall e, c = EIns2 e -> e ∈ b :: gpos g) /\ i <> lend b (gpos g)
    | IOccB => g.1 = None -> nomatch k g.2.*2
    | IConB | ICntB | ISetB => g.1 = None /\ nomatch k g.2.*2
    | ILockL e => g.1 <> None /\ e ∈ b :: gpos g
    | IPop e q => ready g b k e /\ q_prog q = [QPop KPopBack] /\ q_log q = []
    | IConL e _ | IOffL e _ | ICntL e _ | ISetL e _ | ILinkL e _ => ready g b k e
    | IUnlL e _ => e ∈ b :: gpos g
    | _ => False
    end.
  Definition knows_find g (b : nat) (k : K) (pc : upc) : Prop :=
    match pc with
    | UIdle => True
    | FOcc FUser _ | FVal FUser _ | FOff FUser _ | FAdd FUser _ => walk FUser g b k pc
    | _ => False
    end.
  Definition call_ok (op : cop K V) : Prop := match op with CErase _ => False | _ => True end.
  Definition tl G t : Prop :=
    (forall op, op ∈ c_prog t -> call_ok op) /\
    match c_prog t with
    | [] => c_pc t = UIdle
    | op :: _ => forall g, G !! bkt (tkey op) = Some g ->
        match op with CInsert _ => knows_ins g (bkt (tkey op)) (tkey op) (c_pc t) | _ => knows_find g (bkt (tkey op)) (tkey op) (c_pc t) end
    end.
  (** *** what it knows about the entry it is filling *)
  Definition priv t : option nat :=
    match c_pc t with ICntB | ISetB => Some (tb t) | IConL _ p | IOffL _ p | ICntL _ p | ISetL _ p | ILinkL _ p => Some p | _ => None end.
  Definition tp s t : Prop :=
    match c_prog t with
    | CInsert v :: _ =>
      match c_pc t with
      | ICntB | ISetB => c_values s !! tb t = Some (Some v)
      | IConL _ p => c_occ s !! p = Some false
      | IOffL _ p => c_occ s !! p = Some false /\ c_values s !! p = Some (Some v)
      | ICntL _ p | ISetL _ p => c_occ s !! p = Some false /\ c_values s !! p = Some (Some v) /\ c_off s !! p = Some 0
      | ILinkL _ p => c_occ s !! p = Some true /\ c_values s !! p = Some (Some v) /\ c_off s !! p = Some 0
      | _ => True
      end
    | _ => True
    end.
  Definition stored_at s (p : nat) (v : V) : Prop := c_values s !! p = Some (Some v) /\ c_occ s !! p = Some true.

  (** an entry of a bucket list; lists only grow at their end, heads are only filled *)
  Definition in_list G (p : nat) (v : V) : Prop := exists b g, G !! b = Some g /\ ((p = b /\ g.1 = Some v) \/ (p, v) ∈ g.2).
  Definition gext G G' : Prop := forall b g, G !! b = Some g -> exists g', G' !! b = Some g' /\ (g.1 <> None -> g'.1 = g.1) /\ exists l, g'.2 = g.2 ++ l.
  Lemma gext_refl G : gext G G.
  Proof. intros b g H. exists g. split; [exact H|]. split; [auto|]. exists []. rewrite app_nil_r. reflexivity. Qed.
  Lemma gext_insert G b g g' : G !! b = Some g -> (g.1 <> None -> g'.1 = g.1) -> (exists l, g'.2 = g.2 ++ l) -> gext G (<[b := g']> G).
  Proof.
    intros Hb H1 H2 b0 g0 H0. destruct (decide (b0 = b)) as [-> |Hne].
    - rewrite Hb in H0. injection H0 as <-. exists g'. rewrite list_lookup_insert by (eapply lookup_lt_Some; exact Hb). auto.
    - exists g0. rewrite list_lookup_insert_ne by congruence. split; [exact H0|]. split; [auto|]. exists []. rewrite app_nil_r. reflexivity.
  Qed.
  Lemma gext_in G G' p v : gext G G' -> in_list G p v -> in_list G' p v.
  Proof.
    intros H (b & g & Hg & Hp). destruct (H b g Hg) as (g' & Hg' & H1 & l & H2). exists b, g'. split; [exact Hg'|]. destruct Hp as [[-> Hp]|Hp].
    - left. split; [reflexivity|]. rewrite H1; [exact Hp|]. congruence.
    - right. rewrite H2. apply elem_of_app. left. exact Hp.
  Qed.

  Context (M0 : list V).
  Record cinv s ls G F : Prop := {
    ci_lv : length (c_values s) = n;
    ci_lf : length (c_off s) = n;
    ci_lo : length (c_occ s) = n;
    ci_ll : length (c_locks s) = n;
    ci_lg : length G = bc;
    ci_perm : (G ≫= gpos) ++ (ls ≫= hand) ++ F ≡ₚ seq bc E;
    ci_head : forall b g, G !! b = Some g -> c_occ s !! b = Some (is_some g.1) /\ forall v, g.1 = Some v -> c_values s !! b = Some (Some v);
    ci_link : forall b g, G !! b = Some g -> linked (c_off s) b (gpos g);
    ci_chain : forall b g p v, G !! b = Some g -> (p, v) ∈ g.2 -> stored_at s p v;
    ci_free : forall p, p ∈ F -> c_occ s !! p = Some false;
    ci_off : forall p o, c_off s !! p = Some o -> 0 <= Z.of_nat p + o < Z.of_nat n;
    ci_live : forall p, (p < n)%nat -> live (lkd (c_values s) p) = Z.b2z (lk (c_occ s) p) + sumZ (lvc p) ls;
    ci_lock : forall p, (p < n)%nat -> Z.b2z (lk (c_locks s) p) = sumZ (holds_lock p) ls;
    ci_count : c_count s = Z.of_nat (length (G ≫= gvals)) + sumZ pend ls;
    ci_bkt : forall b g v, G !! b = Some g -> v ∈ gvals g -> bkt (kf v) = b;
    ci_kd : forall b g, G !! b = Some g -> keys_distinct kf keq (gvals g);
    ci_tl : forall t, t ∈ ls -> tl G t /\ tp s t;
    ci_vec : inv (T:=Z) (C:=Z) E vm (fun _ => True) (fun w => sumZ w (Z.of_nat <$> F)) (c_ex s) (proj <$> ls);
    ci_cons : G ≫= gvals ≡ₚ M0 ++ (ls ≫= (fun t => (ins t).*2));
    ci_ins : forall t p v, t ∈ ls -> (p, v) ∈ ins t -> in_list G p v
  }.

  (** *** facts about a state *)
  Section facts.
    Context (s : cshared V) (ls : list (cthread K V)) (G : list (option V * list (nat * V))) (F : list nat) (I : cinv s ls G F).
    Lemma cf_nodup : NoDup ((G ≫= gpos) ++ (ls ≫= hand) ++ F).
    Proof using All. rewrite (ci_perm _ _ _ _ I). apply NoDup_seq. Qed.
    Lemma cf_range p : p ∈ (G ≫= gpos) ++ (ls ≫= hand) ++ F -> (bc <= p < n)%nat.
    Proof using All. rewrite (ci_perm _ _ _ _ I). intros H. apply elem_of_seq in H. lia. Qed.
    Lemma cf_in b g p : G !! b = Some g -> p ∈ gpos g -> p ∈ G ≫= gpos.
    Proof. intros H Hp. apply elem_of_list_bind. exists g. split; [exact Hp|]. apply elem_of_list_lookup. eauto. Qed.
    Lemma cf_chain_range b g p : G !! b = Some g -> p ∈ gpos g -> (bc <= p < n)%nat.
    Proof using All. intros H Hp. apply cf_range. apply elem_of_app. left. eapply cf_in; eauto. Qed.
    Lemma cf_hand_in t p : t ∈ ls -> p ∈ hand t -> p ∈ ls ≫= hand.
    Proof. intros H Hp. apply elem_of_list_bind. eauto. Qed.
    Lemma cf_hand_range t p : t ∈ ls -> p ∈ hand t -> (bc <= p < n)%nat.
    Proof using All. intros H Hp. apply cf_range. apply elem_of_app. right. apply elem_of_app. left. eapply cf_hand_in; eauto. Qed.
    Lemma cf_free_range p : p ∈ F -> (bc <= p < n)%nat.
    Proof using All. intros H. apply cf_range. apply elem_of_app. right. apply elem_of_app. right. exact H. Qed.
    Lemma cf_head_range b g : G !! b = Some g -> (b < bc)%nat.
    Proof using All. intros H. apply lookup_lt_Some in H. rewrite (ci_lg _ _ _ _ I) in H. exact H. Qed.
    Lemma cf_bucket b : (b < bc)%nat -> exists g, G !! b = Some g.
    Proof using All. intros H. apply lookup_lt_is_Some_2. rewrite (ci_lg _ _ _ _ I). exact H. Qed.
    Lemma cf_chain_nodup b g : G !! b = Some g -> NoDup (b :: gpos g).
    Proof using All.
      intros H. apply NoDup_cons. split.
      - intros Hc. pose proof (cf_chain_range b g b H Hc). pose proof (cf_head_range b g H). lia.
      - pose proof cf_nodup as ND. apply NoDup_app in ND as (ND & _ & _). destruct (bind_split gpos G b g H) as (rest & E1 & _). rewrite E1 in ND. apply NoDup_app in ND. tauto.
    Qed.
    Lemma cf_chain_disjoint b b' g g' p : G !! b = Some g -> G !! b' = Some g' -> b <> b' -> p ∈ gpos g -> p ∉ gpos g'.
    Proof using All.
      intros H H' Hne Hp Hp'. pose proof cf_nodup as ND. apply NoDup_app in ND as (ND & _ & _). destruct (bind_split gpos G b g H) as (rest & E1 & _ & E3).
      rewrite E1 in ND. apply NoDup_app in ND as (_ & ND & _). apply (ND p Hp). eapply E3; eauto.
    Qed.
    Lemma cf_node_other b b' g g' p : G !! b = Some g -> G !! b' = Some g' -> b <> b' -> p ∈ b :: gpos g -> p ∉ b' :: gpos g'.
    Proof using All.
      intros H H' Hne Hp Hc. apply elem_of_cons in Hp as [-> |Hp]; apply elem_of_cons in Hc as [Hc|Hc].
      - congruence.
      - pose proof (cf_chain_range _ _ _ H' Hc). pose proof (cf_head_range _ _ H). lia.
      - subst. pose proof (cf_chain_range _ _ _ H Hp). pose proof (cf_head_range _ _ H'). lia.
      - exact (cf_chain_disjoint b b' g g' p H H' Hne Hp Hc).
    Qed.
    Lemma cf_hand_chain t b g p : t ∈ ls -> p ∈ hand t -> G !! b = Some g -> p ∉ b :: gpos g.
    Proof using All.
      intros Ht Hp Hb Hc. pose proof (cf_hand_range _ _ Ht Hp). apply elem_of_cons in Hc as [-> |Hc]; [pose proof (cf_head_range _ _ Hb); lia|].
      pose proof cf_nodup as ND. apply NoDup_app in ND as (_ & ND & _). apply (ND p (cf_in _ _ _ Hb Hc)). apply elem_of_app. left. eapply cf_hand_in; eauto.
    Qed.
    Lemma cf_hand_free t p : t ∈ ls -> p ∈ hand t -> p ∉ F.
    Proof using All.
      intros Ht Hp Hf. pose proof cf_nodup as ND. apply NoDup_app in ND as (_ & _ & ND). apply NoDup_app in ND as (_ & ND & _). apply (ND p); [eapply cf_hand_in; eauto|exact Hf].
    Qed.
    Lemma cf_free_chain p b g : p ∈ F -> G !! b = Some g -> p ∉ b :: gpos g.
    Proof using All.
      intros Hp Hb Hc. pose proof (cf_free_range _ Hp). apply elem_of_cons in Hc as [-> |Hc]; [pose proof (cf_head_range _ _ Hb); lia|].
      pose proof cf_nodup as ND. apply NoDup_app in ND as (_ & ND & _). apply (ND p (cf_in _ _ _ Hb Hc)). apply elem_of_app. right. exact Hp.
    Qed.
    Lemma cf_hands i j ti tj p : i <> j -> ls !! i = Some ti -> ls !! j = Some tj -> p ∈ hand ti -> p ∈ hand tj -> False.
    Proof using All.
      intros Hne Hi Hj Hpi Hpj. pose proof cf_nodup as ND. apply NoDup_app in ND as (_ & _ & ND). apply NoDup_app in ND as (ND & _ & _).
      destruct (bind_split hand ls i ti Hi) as (rest & E1 & _ & E3). rewrite E1 in ND. apply NoDup_app in ND as (_ & ND & _). apply (ND p Hpi). eapply E3; eauto.
    Qed.
    Lemma cf_tb t : c_prog t <> [] -> (tb t < bc)%nat.
    Proof using All. unfold tb. destruct (c_prog t) as [|op ?]; [done|]. intros _. apply (bucket_of_bkt (tkey op)). Qed.
    Lemma holds_nonneg p t : 0 <= holds_lock p t.
    Proof. unfold holds_lock. destruct (decide _); lia. Qed.
    Lemma cf_lock_excl i j ti tj p : (p < n)%nat -> i <> j -> ls !! i = Some ti -> ls !! j = Some tj -> lock_of ti = Some p -> lock_of tj = Some p -> False.
    Proof using All.
      intros Hp Hne Hi Hj Li Lj. pose proof (ci_lock _ _ _ _ I p Hp) as H.
      pose proof (sumZ_ge_two (holds_lock p) ls i j ti tj (fun l _ => holds_nonneg p l) Hne Hi Hj) as H2.
      unfold holds_lock at 1 2 in H2. rewrite Li, Lj, decide_True in H2 by reflexivity. destruct (lk (c_locks s) p); cbn in H; lia.
    Qed.
    Lemma cf_node_range b g p : G !! b = Some g -> p ∈ b :: gpos g -> (p < n)%nat.
    Proof using All.
      intros Hb Hp. apply elem_of_cons in Hp as [-> |Hp]; [pose proof (cf_head_range _ _ Hb); lia|]. pose proof (cf_chain_range _ _ _ Hb Hp). lia.
    Qed.
    (** a thread in an insert or find that is running *)
    Lemma cf_walk_off b g (q : nat) : G !! b = Some g -> q ∈ b :: gpos g -> exists o, c_off s !! q = Some o /\ (o = 0 <-> q = lend b (gpos g)) /\ (o <> 0 -> exists j es1 w es2, g.2 = es1 ++ (j, w) :: es2 /\ lend b es1.*1 = q /\ Z.of_nat q + o = Z.of_nat j).
    Proof using All.
      intros Hb Hq. pose proof (ci_link _ _ _ _ I b g Hb) as HL. pose proof (cf_chain_nodup b g Hb) as ND.
      assert (HS : exists es1 es2, g.2 = es1 ++ es2 /\ lend b es1.*1 = q).
      { apply elem_of_cons in Hq as [-> |Hq]; [exists [], g.2; auto|]. unfold gpos in Hq. apply elem_of_list_fmap in Hq as ([x w] & -> & Hw).
        apply elem_of_list_split in Hw as (l1 & l2 & E1). exists (l1 ++ [(x, w)]), l2. rewrite <- app_assoc. split; [exact E1|]. rewrite fmap_app. apply lend_snoc. }
      destruct HS as (es1 & es2 & Eg & El). unfold gpos in *. rewrite Eg, fmap_app in *. pose proof (linked_split _ _ _ _ HL) as HL2. rewrite El in HL2.
      destruct es2 as [|[j w] es2]; cbn [fmap list_fmap fst] in *.
      - cbn [linked] in HL2. rewrite app_nil_r. exists 0. split; [exact HL2|]. split; [split; auto|lia].
      - cbn [linked] in HL2. destruct HL2 as (H1 & H2 & _). eexists. split; [exact H2|]. split; [|intros _; exists j, es1, w, es2; repeat split; auto; lia].
        split; [lia|]. intros He. exfalso. rewrite lend_app, El, lend_cons in He.
        pose proof (lend_elem j es2.*1) as Hj. rewrite <- He in Hj.
        rewrite app_comm_cons in ND. apply NoDup_app in ND as (_ & ND & _). apply (ND q); [|exact Hj]. rewrite <- El. apply lend_elem.
    Qed.
    Lemma seen_node g b k i : seen g b k i -> i ∈ b :: gpos g.
    Proof.
      intros (es1 & es2 & E1 & <- & _). unfold gpos. rewrite E1, fmap_app. rewrite app_comm_cons. apply elem_of_app. left. apply lend_elem.
    Qed.
    Lemma coming_node g b k i : coming g b k i -> i ∈ b :: gpos g.
    Proof.
      intros [-> |(es1 & w & es2 & E1 & _)]; [left|]. right. unfold gpos. rewrite E1, fmap_app. apply elem_of_app. right. left.
    Qed.
  End facts.

  (** *** one step of thread i, componentwise *)
  Definition agree s s' (x : nat) : Prop := c_values s' !! x = c_values s !! x /\ c_occ s' !! x = c_occ s !! x /\ c_off s' !! x = c_off s !! x.
  Lemma tp_agree s s' t : (forall x, priv t = Some x -> agree s s' x) -> tp s t -> tp s' t.
  Proof.
    unfold tp, priv, agree. intros H. destruct (c_prog t) as [|[v| |]]; auto.
    destruct (c_pc t); auto; destruct (H _ eq_refl) as (E1 & E2 & E3); rewrite ?E1, ?E2, ?E3; auto.
  Qed.
  Lemma cupd s ls G F i t s' t' G' F' : cinv s ls G F -> ls !! i = Some t ->
    (length (c_values s') = n /\ length (c_off s') = n /\ length (c_occ s') = n /\ length (c_locks s') = n /\ length G' = bc) ->
    ((G' ≫= gpos) ++ hand t' ++ F' ≡ₚ (G ≫= gpos) ++ hand t ++ F) ->
    (forall b g, G' !! b = Some g -> c_occ s' !! b = Some (is_some g.1) /\ forall v, g.1 = Some v -> c_values s' !! b = Some (Some v)) ->
    (forall b g, G' !! b = Some g -> linked (c_off s') b (gpos g)) ->
    (forall b g p v, G' !! b = Some g -> (p, v) ∈ g.2 -> stored_at s' p v) ->
    (forall p, p ∈ F' -> c_occ s' !! p = Some false) ->
    (forall p o, c_off s' !! p = Some o -> 0 <= Z.of_nat p + o < Z.of_nat n) ->
    (forall p, (p < n)%nat -> live (lkd (c_values s') p) - live (lkd (c_values s) p) = Z.b2z (lk (c_occ s') p) - Z.b2z (lk (c_occ s) p) + lvc p t' - lvc p t) ->
    (forall p, (p < n)%nat -> Z.b2z (lk (c_locks s') p) - Z.b2z (lk (c_locks s) p) = holds_lock p t' - holds_lock p t) ->
    (c_count s' - c_count s = Z.of_nat (length (G' ≫= gvals)) - Z.of_nat (length (G ≫= gvals)) + pend t' - pend t) ->
    (forall b g v, G' !! b = Some g -> v ∈ gvals g -> bkt (kf v) = b) ->
    (forall b g, G' !! b = Some g -> keys_distinct kf keq (gvals g)) ->
    (tl G' t' /\ tp s' t') ->
    (forall j tj, j <> i -> ls !! j = Some tj -> tl G tj -> tl G' tj) ->
    (forall j tj x, j <> i -> ls !! j = Some tj -> priv tj = Some x -> agree s s' x) ->
    inv (T:=Z) (C:=Z) E vm (fun _ => True) (fun w => sumZ w (Z.of_nat <$> F')) (c_ex s') (<[i := proj t']> (proj <$> ls)) ->
    ((G' ≫= gvals) ++ (ins t).*2 ≡ₚ (G ≫= gvals) ++ (ins t').*2) ->
    gext G G' ->
    (forall p v, (p, v) ∈ ins t' -> (p, v) ∈ ins t \/ in_list G' p v) ->
    cinv s' (<[i := t']> ls) G' F'.
  Proof using All.
    intros I Hi (L1 & L2 & L3 & L4 & L5) Hperm Hhead Hlink Hchain Hfree Hoff Hlive Hlock Hcount Hbk Hkd [Htl Htp] Htlo Hag Hvec Hcons Hmono Hins.
    assert (Hin : t ∈ ls) by (eapply elem_of_list_lookup_2; exact Hi).
    assert (Hel : forall tj, tj ∈ <[i := t']> ls -> tj = t' \/ exists j, j <> i /\ ls !! j = Some tj).
    { intros tj Ht. apply elem_of_list_lookup in Ht as [j Hj]. apply list_lookup_insert_Some in Hj as [(_ & <- & _)|[Hne Hj]]; [left; reflexivity|]. right. exists j. split; [congruence|exact Hj]. }
    destruct (bind_split hand ls i t Hi) as (hr & EH1 & EH2 & _).
    destruct (bind_split (fun t => (ins t).*2) ls i t Hi) as (ir & EI1 & EI2 & _).
    split; auto.
    - rewrite EH2. rewrite <- (ci_perm _ _ _ _ I). rewrite EH1.
      rewrite <- (app_assoc (hand t')), <- (app_assoc (hand t)).
      rewrite (Permutation_app_comm hr F'), (Permutation_app_comm hr F).
      rewrite !app_assoc. f_equiv. rewrite <- !app_assoc. exact Hperm.
    - intros p Hp. rewrite (sumZ_insert _ _ _ _ _ Hi). specialize (Hlive p Hp). pose proof (ci_live _ _ _ _ I p Hp). lia.
    - intros p Hp. rewrite (sumZ_insert _ _ _ _ _ Hi). specialize (Hlock p Hp). pose proof (ci_lock _ _ _ _ I p Hp). lia.
    - rewrite (sumZ_insert _ _ _ _ _ Hi). pose proof (ci_count _ _ _ _ I). lia.
    - intros tj Ht. destruct (Hel tj Ht) as [-> |(j & Hne & Hj)]; [auto|].
      destruct (ci_tl _ _ _ _ I tj (elem_of_list_lookup_2 _ _ _ Hj)) as [T1 T2]. split; [eapply Htlo; eauto|]. eapply tp_agree; [|exact T2]. intros x Hx. eapply Hag; eauto.
    - rewrite list_fmap_insert. exact Hvec.
    - rewrite EI2. pose proof (ci_cons _ _ _ _ I) as HC. rewrite EI1 in HC.
      apply (Permutation_app_inv_r (ins t).*2). rewrite Hcons, HC. rewrite <- !app_assoc. f_equiv.
      rewrite (Permutation_app_comm (ins t).*2). rewrite (Permutation_app_comm (ins t').*2). rewrite <- !app_assoc. f_equiv. apply Permutation_app_comm.
    - intros tj p v Ht Hp. destruct (Hel tj Ht) as [-> |(j & Hne & Hj)].
      + destruct (Hins p v Hp) as [H|H]; [|exact H]. eapply gext_in; [exact Hmono|]. exact (ci_ins _ _ _ _ I t p v Hin H).
      + eapply gext_in; [exact Hmono|]. exact (ci_ins _ _ _ _ I tj p v (elem_of_list_lookup_2 _ _ _ Hj) Hp).
  Qed.

  (** a step that changes no value, occupancy or offset *)
  Lemma cupd_quiet s ls G F i t s' t' : cinv s ls G F -> ls !! i = Some t ->
    c_values s' = c_values s -> c_occ s' = c_occ s -> c_off s' = c_off s -> length (c_locks s') = n ->
    hand t' = hand t -> (forall p, lvc p t' = lvc p t) -> ins t' = ins t ->
    (forall p, (p < n)%nat -> Z.b2z (lk (c_locks s') p) - Z.b2z (lk (c_locks s) p) = holds_lock p t' - holds_lock p t) ->
    c_count s' - c_count s = pend t' - pend t ->
    tl G t' -> tp s t' ->
    inv (T:=Z) (C:=Z) E vm (fun _ => True) (fun w => sumZ w (Z.of_nat <$> F)) (c_ex s') (<[i := proj t']> (proj <$> ls)) ->
    cinv s' (<[i := t']> ls) G F.
  Proof using All.
    intros I Hi Ev Eo Ef Ll Hh Hl Hins Hlock Hcount Htl Htp Hvec.
    assert (Hag : forall x, agree s s' x). { intros x. unfold agree. rewrite Ev, Eo, Ef. auto. }
    assert (Hst : forall p v, stored_at s p v -> stored_at s' p v). { intros p v. unfold stored_at. rewrite Ev, Eo. auto. }
    eapply cupd; try eassumption; try apply gext_refl; rewrite ?Ev, ?Eo, ?Ef, ?Hh, ?Hins; auto; try apply I.
    - split; [apply (ci_lv _ _ _ _ I)|]. split; [apply (ci_lf _ _ _ _ I)|]. split; [apply (ci_lo _ _ _ _ I)|]. split; [exact Ll|apply (ci_lg _ _ _ _ I)].
    - intros b g p v H1 H2. apply Hst. eapply (ci_chain _ _ _ _ I); eauto.
    - intros p Hp. rewrite Hl. lia.
    - lia.
    - split; [exact Htl|]. eapply tp_agree; [|exact Htp]. intros x _. apply Hag.
  Qed.
  (** ... and leaves the vector alone *)
  Lemma vec_same s ls G F i t t' : cinv s ls G F -> ls !! i = Some t -> proj t' = proj t ->
    inv (T:=Z) (C:=Z) E vm (fun _ => True) (fun w => sumZ w (Z.of_nat <$> F)) (c_ex s) (<[i := proj t']> (proj <$> ls)).
  Proof using All.
    intros I Hi Hp. rewrite list_insert_id; [apply (ci_vec _ _ _ _ I)|]. rewrite list_lookup_fmap, Hi, Hp. reflexivity.
  Qed.
  (** no access: only the local state changes *)
  Lemma cupd_local s ls G F i t t' : cinv s ls G F -> ls !! i = Some t ->
    hand t' = hand t -> (forall p, lvc p t' = lvc p t) -> ins t' = ins t -> lock_of t' = lock_of t -> pend t' = pend t -> proj t' = proj t ->
    tl G t' -> tp s t' -> cinv s (<[i := t']> ls) G F.
  Proof using All.
    intros I Hi Hh Hl Hins Hlk Hpe Hpr Htl Htp. eapply cupd_quiet; eauto.
    - apply (ci_ll _ _ _ _ I).
    - intros p Hp. unfold holds_lock. rewrite Hlk. lia.
    - lia.
    - eapply vec_same; eauto.
  Qed.
  (** taking / releasing a lock *)
  Lemma cupd_lock s ls G F i t t' p b : cinv s ls G F -> ls !! i = Some t -> (p < n)%nat -> lk (c_locks s) p = negb b ->
    (if b then lock_of t = None /\ lock_of t' = Some p else lock_of t = Some p /\ lock_of t' = None) ->
    hand t' = hand t -> (forall p, lvc p t' = lvc p t) -> ins t' = ins t -> pend t' = pend t -> proj t' = proj t ->
    tl G t' -> tp s t' -> cinv (put_lock s p b) (<[i := t']> ls) G F.
  Proof using All.
    intros I Hi Hp Hb Hlk Hh Hl Hins Hpe Hpr Htl Htp. eapply cupd_quiet; eauto; cbn [put_lock c_locks c_values c_occ c_off c_count c_ex].
    - rewrite insert_length. apply (ci_ll _ _ _ _ I).
    - intros q Hq. rewrite lk_insert by (rewrite (ci_ll _ _ _ _ I); exact Hp). unfold holds_lock.
      destruct (decide (q = p)) as [-> |Hne].
      + rewrite Hb. destruct b; destruct Hlk as [-> ->]; repeat case_decide; try congruence; cbn; lia.
      + destruct b; destruct Hlk as [-> ->]; rewrite !decide_False by congruence; lia.
    - lia.
    - eapply vec_same; eauto.
  Qed.

  (** *** how the knowledge of the other threads survives *)
  Lemma tl_other G t b g' : (c_prog t <> [] -> tb t <> b) -> tl G t -> tl (<[b := g']> G) t.
  Proof.
    unfold tl, tb. intros Hne [H1 H2]. split; [exact H1|]. destruct (c_prog t) as [|op rest]; [exact H2|]. intros g Hg. apply H2. rewrite list_lookup_insert_ne in Hg; [exact Hg|].
    intros E0. apply Hne; [discriminate|]. congruence.
  Qed.
  Lemma coming_app g b k i e : coming g b k i -> coming (g.1, g.2 ++ [e]) b k i.
  Proof. intros [-> |(es1 & w & es2 & E1 & H)]; [left; reflexivity|]. right. exists es1, w, (es2 ++ [e]). cbn. rewrite E1, <- app_assoc. auto. Qed.
  Lemma seen_app g b k i e : seen g b k i -> seen (g.1, g.2 ++ [e]) b k i.
  Proof. intros (es1 & es2 & E1 & H). exists es1, (es2 ++ [e]). cbn. rewrite E1, <- app_assoc. auto. Qed.
  Lemma node_app g (b i : nat) p (v : V) : i ∈ b :: gpos g -> i ∈ b :: gpos (g.1, g.2 ++ [(p, v)]).
  Proof. unfold gpos. cbn. rewrite fmap_app. rewrite !elem_of_cons, elem_of_app. tauto. Qed.
  Lemma gpos_app g p (v : V) : gpos (g.1, g.2 ++ [(p, v)]) = gpos g ++ [p].
  Proof. unfold gpos. cbn. rewrite fmap_app. reflexivity. Qed.
  Definition lock_at (b : nat) (pc : upc) : option nat :=
    match pc with
    | FOcc FInsB _ | FVal FInsB _ | FOff FInsB _ | FAdd FInsB _ => Some b
    | FOcc (FInsL e _) _ | FVal (FInsL e _) _ | FOff (FInsL e _) _ | FAdd (FInsL e _) _ => Some e
    | EOff (EIns2 e) _ | EAdd (EIns2 e) _ => Some e
    | IOccB | IConB | ICntB | ISetB | IUnlB _ => Some b
    | IPop e _ | IConL e _ | IOffL e _ | ICntL e _ | ISetL e _ | ILinkL e _ | IUnlL e _ => Some e
    | _ => None
    end.
  Lemma lock_of_at t : lock_of t = lock_at (tb t) (c_pc t).
  Proof. reflexivity. Qed.
  Lemma walk_app c g b k pc p (v : V) : p ∉ b :: gpos g -> walk c g b k pc -> walk c (g.1, g.2 ++ [(p, v)]) b k pc.
  Proof.
    intros Hp. destruct pc; cbn [walk]; try tauto.
    - intros [H1 H2]. split; [apply coming_app; exact H1|exact H2].
    - intros [H1 H2]. split; [apply coming_app; exact H1|exact H2].
    - intros [H1 H2]. split; [apply seen_app; exact H1|exact H2].
    - intros (H1 & H2 & H3). split; [apply seen_app; exact H1|]. split; [exact H2|]. rewrite gpos_app, lend_snoc. intros ->. apply Hp. eapply seen_node. exact H1.
  Qed.
  (** an entry p is appended behind e *)
  Lemma knows_app g b k pc p v : g.1 <> None -> p ∉ b :: gpos g -> lock_at b pc <> Some (lend b (gpos g)) -> knows_ins g b k pc -> knows_ins (g.1, g.2 ++ [(p, v)]) b k pc.
  Proof.
    intros Hg Hp Hlk. 
    assert (Hctx : forall c, ctxok c g b -> (forall e chk, c = FInsL e chk -> e <> lend b (gpos g)) -> ctxok c (g.1, g.2 ++ [(p, v)]) b).
    { intros c. destruct c as [| | |e chk| | |]; cbn [ctxok]; auto. intros (H1 & H2 & H3) Hne. split; [exact H1|]. split; [apply node_app; exact H2|]. intros ->. exfalso. eapply Hne; [reflexivity|]. auto. }
    destruct pc; cbn [knows_ins]; try tauto.
    1-4: intros [H1 H2]; (split; [apply Hctx; [exact H1|]; intros e chk -> He; apply Hlk; cbn; congruence|apply walk_app; assumption]).
    1: intros (H1 & H2 & H3); split; [exact H1|]; split; [apply node_app; exact H2|]; intros e He; apply node_app; auto.
    1: intros (H1 & H2 & H3 & H4); split; [exact H1|]; split; [apply node_app; exact H2|]; split; [intros e He; apply node_app; auto|];
      rewrite gpos_app, lend_snoc; intros ->; contradiction.
    all: try (intros _ H; cbn in H; contradiction).
    all: try (intros [H1 _]; contradiction).
    all: try (intros (_ & _ & He); exfalso; apply Hlk; cbn; congruence).
    all: try (intros ((_ & _ & He) & _); exfalso; apply Hlk; cbn; congruence).
    all: try (apply node_app).
    intros [H1 H2]. split; [exact H1|apply node_app; exact H2].
  Qed.
  Lemma knows_find_app g b k pc p v : p ∉ b :: gpos g -> knows_find g b k pc -> knows_find (g.1, g.2 ++ [(p, v)]) b k pc.
  Proof. intros Hp. destruct pc as [| | |c ?|c ?|c ?|c ?|c ?|c ?|c ? ?|c ? ?| | | | | | |r|e|e q|e q|e q|e q|e q|e q|e r|q|q|q|q|q ok|q r|q r|q|q r|q r|q r o|q r o|q r|q r|q r|q r x|q r ok|q ok]; cbn [knows_find]; auto; destruct c; auto; apply walk_app; exact Hp. Qed.
  (** the head of the bucket is filled *)
  Lemma walk_head c g b k pc v : g.1 = None -> isL c = false -> walk c g b k pc -> walk c (Some v, g.2) b k pc.
  Proof.
    intros Hg Hc. destruct pc; cbn [walk]; rewrite ?Hc; try tauto.
    - intros (H1 & _). split; [exact H1|discriminate].
    - intros (H1 & _). split; [exact H1|]. split; [discriminate|]. intros _. cbn. discriminate.
    - intros (H1 & _). split; [exact H1|discriminate].
    - intros (H1 & _ & H2). split; [exact H1|]. split; [discriminate|exact H2].
  Qed.
  Lemma knows_head g b k pc v : g.1 = None -> lock_at b pc <> Some b -> knows_ins g b k pc -> knows_ins (Some v, g.2) b k pc.
  Proof.
    intros Hg Hlk. assert (Hctx : forall c, ctxok c g b -> isL c = false /\ ctxok c (Some v, g.2) b).
    { intros c. destruct c; cbn [ctxok isL]; auto; try tauto. }
    assert (Hrd : forall e, ready g b k e -> False). { intros e ((h & H1 & _) & _). congruence. }
    destruct pc; cbn [knows_ins]; try tauto.
    1-4: intros [H1 H2]; destruct (Hctx _ H1) as [H3 H4]; split; [exact H4|apply walk_head; assumption].
    all: try (intros H; exfalso; apply Hlk; reflexivity).
    all: try (intros [H _]; exfalso; eapply Hrd; exact H).
    all: intros H; exfalso; eapply Hrd; exact H.
  Qed.
  Lemma knows_find_head g b k pc v : g.1 = None -> knows_find g b k pc -> knows_find (Some v, g.2) b k pc.
  Proof. intros Hg. destruct pc as [| | |c ?|c ?|c ?|c ?|c ?|c ?|c ? ?|c ? ?| | | | | | |r|e|e q|e q|e q|e q|e q|e q|e r|q|q|q|q|q ok|q r|q r|q|q r|q r|q r o|q r o|q r|q r|q r|q r x|q r ok|q ok]; cbn [knows_find]; auto; destruct c; auto; apply walk_head; auto. Qed.

  (** *** stepping *)
  Definition knows_op (op : cop K V) g (b : nat) (k : K) (pc : upc) : Prop := match op with CInsert _ => knows_ins g b k pc | _ => knows_find g b k pc end.
  Lemma tl_go G t op rest g pc : c_prog t = op :: rest -> tl G t -> G !! bkt (tkey op) = Some g -> knows_op op g (bkt (tkey op)) (tkey op) pc -> tl G (cgo t pc).
  Proof.
    unfold tl, cgo. cbn [c_prog c_pc]. intros Ep [H1 _] Hg Hk. rewrite Ep in *. split; [exact H1|]. intros g' Hg'. rewrite Hg in Hg'. injection Hg' as <-. exact Hk.
  Qed.
  Lemma tl_finish G t op rest r : c_prog t = op :: rest -> tl G t -> tl G (cfinish t op r).
  Proof.
    unfold tl, cfinish. cbn [c_prog c_pc]. intros Ep [H1 _]. rewrite Ep in *. cbn [tail]. split; [intros o Ho; apply H1; right; exact Ho|].
    destruct rest as [|o rest]; [reflexivity|]. intros g' Hg'. specialize (H1 o ltac:(right; left)). destruct o; [exact Logic.I|contradiction|exact Logic.I].
  Qed.
  Lemma tp_idle s t op r : tp s (cfinish t op r).
  Proof. unfold tp, cfinish. cbn [c_prog c_pc]. destruct (tail (c_prog t)) as [|[]]; exact Logic.I. Qed.
  Lemma ins_finish t op r : ins (cfinish t op r) = logged t ++ omap (fun x => match x with (CInsert v, RInserted p) => Some (p, v) | _ => None end) [(op, r)].
  Proof.
    unfold ins, logged, leaving, cfinish. cbn [c_log c_prog c_pc]. rewrite omap_app. rewrite <- app_assoc. f_equal. destruct (tail (c_prog t)) as [|[]]; rewrite app_nil_r; reflexivity.
  Qed.
  Lemma lvc_zero s ls G F i t p : cinv s ls G F -> ls !! i = Some t -> lvc p t = 0 -> (lock_of t = Some p /\ (p < bc)%nat \/ p ∈ hand t) -> sumZ (lvc p) ls = 0.
  Proof using All.
    intros I Hi H0 Hc. apply sumZ_zero. intros tj Hj. apply elem_of_list_lookup in Hj as [j Hj].
    destruct (decide (j = i)) as [-> |Hne]; [rewrite Hj in Hi; injection Hi as ->; exact H0|].
    assert (Hin : tj ∈ ls) by (eapply elem_of_list_lookup_2; exact Hj).
    assert (Htb : lock_of tj = Some (tb tj) -> at_ p (tb tj) = 0).
    { intros Hl. unfold at_. case_decide; [|reflexivity]. exfalso. subst p. destruct Hc as [[Hc Hb]|Hc].
      - eapply (cf_lock_excl s ls G F I j i tj t (tb tj)); eauto. lia.
      - pose proof (cf_hand_range s ls G F I t _ (elem_of_list_lookup_2 _ _ _ Hi) Hc). destruct (c_prog tj) eqn:Ep.
        + unfold tb in *. rewrite Ep in *. lia.
        + pose proof (cf_tb s ls G F I tj). rewrite Ep in *. specialize (H1 ltac:(discriminate)). lia. }
    assert (Hh : forall q, q ∈ hand tj -> at_ p q = 0).
    { intros q Hq. unfold at_. case_decide; [|reflexivity]. exfalso. subst q. destruct Hc as [[Hc Hb]|Hc].
      - pose proof (cf_hand_range s ls G F I tj p Hin Hq). lia.
      - eapply (cf_hands s ls G F I j i tj t p); eauto. }
    unfold lvc. unfold lock_of in Htb. unfold hand in Hh. destruct (c_pc tj); try reflexivity; try (apply Htb; reflexivity); apply Hh; left.
  Qed.
  (** no other thread is filling an entry this thread may write *)
  Lemma priv_other s ls G F i t j tj x : cinv s ls G F -> ls !! i = Some t -> j <> i -> ls !! j = Some tj -> priv tj = Some x ->
    (lock_of t = Some x /\ (x < bc)%nat \/ x ∈ hand t \/ (lock_of t = Some x /\ exists b g, G !! b = Some g /\ x ∈ b :: gpos g)) -> False.
  Proof using All.
    intros I Hi Hne Hj Hx Hc. assert (Hin : tj ∈ ls) by (eapply elem_of_list_lookup_2; exact Hj). assert (Hini : t ∈ ls) by (eapply elem_of_list_lookup_2; exact Hi).
    assert (Hp : (lock_of tj = Some x /\ (x < bc)%nat) \/ x ∈ hand tj).
    { pose proof (ci_tl _ _ _ _ I tj Hin) as [[_ T] _]. unfold priv in Hx. unfold lock_of, hand.
      destruct (c_prog tj) as [|op rest] eqn:Ep; [rewrite T in Hx; discriminate|].
      pose proof (cf_tb s ls G F I tj) as Hb. rewrite Ep in Hb. specialize (Hb ltac:(discriminate)).
      destruct (c_pc tj); try discriminate; injection Hx as <-; auto; right; left. }
    assert (Hh : forall b g, G !! b = Some g -> x ∈ b :: gpos g -> x ∉ hand tj). { intros b g Hb Hn Hh. eapply (cf_hand_chain s ls G F I tj b g x); eauto. }
    destruct Hp as [[Hl Hb]|Hh'].
    - destruct Hc as [[Hc _]|[Hc|[Hc _]]].
      + eapply (cf_lock_excl s ls G F I i j t tj x); eauto. lia.
      + pose proof (cf_hand_range s ls G F I t x Hini Hc). lia.
      + eapply (cf_lock_excl s ls G F I i j t tj x); eauto. lia.
    - destruct Hc as [[Hc Hb]|[Hc|[Hc (b & g & Hg & Hn)]]].
      + pose proof (cf_hand_range s ls G F I tj x Hin Hh'). lia.
      + eapply (cf_hands s ls G F I i j t tj x); eauto.
      + exact (Hh b g Hg Hn Hh').
  Qed.

  (** writing into one entry *)
  Lemma agree_ne s s' x y : x <> y -> (c_values s' = c_values s \/ exists o, c_values s' = <[x := o]> (c_values s)) ->
    (c_occ s' = c_occ s \/ exists o, c_occ s' = <[x := o]> (c_occ s)) -> (c_off s' = c_off s \/ exists o, c_off s' = <[x := o]> (c_off s)) -> agree s s' y.
  Proof.
    unfold agree. intros Hne [-> |[o ->]] [-> |[o' ->]] [-> |[o'' ->]]; rewrite ?list_lookup_insert_ne by congruence; auto.
  Qed.
  Lemma step_con_head s ls G F i t v rest g : cinv s ls G F -> ls !! i = Some t -> c_prog t = CInsert v :: rest -> G !! bkt (kf v) = Some g ->
    c_pc t = IConB -> g.1 = None -> nomatch (kf v) g.2.*2 -> cinv (put_value s (bkt (kf v)) (Some v)) (<[i := cgo t ICntB]> ls) G F.
  Proof using All.
    intros I Hi Ep Hg Hpc Hnone Hnm. pose proof (cf_head_range s ls G F I _ _ Hg) as Hb.
    assert (Htb : tb t = bkt (kf v)) by (unfold tb; rewrite Ep; reflexivity).
    assert (Hlen : (bkt (kf v) < length (c_values s))%nat) by (rewrite (ci_lv _ _ _ _ I); lia).
    assert (Hlk : lock_of t = Some (bkt (kf v))) by (unfold lock_of; rewrite Hpc, Htb; reflexivity).
    assert (Hocc : lk (c_occ s) (bkt (kf v)) = false). { unfold lk. destruct (ci_head _ _ _ _ I _ _ Hg) as [-> _]. rewrite Hnone. reflexivity. }
    assert (Hdead : live (lkd (c_values s) (bkt (kf v))) = 0).
    { rewrite (ci_live _ _ _ _ I) by lia. rewrite Hocc. rewrite (lvc_zero s ls G F i t); auto. unfold lvc. rewrite Hpc. reflexivity. }
    assert (Hst : forall p w, stored_at s p w -> stored_at (put_value s (bkt (kf v)) (Some v)) p w).
    { intros p w [H1 H2]. split; cbn [put_value c_values c_occ]; [|exact H2]. rewrite list_lookup_insert_ne; [exact H1|]. intros <-. unfold lk in Hocc. rewrite H2 in Hocc. discriminate. }
    eapply (cupd s ls G F i t); try eassumption; try apply gext_refl; cbn [put_value c_values c_occ c_off c_locks c_count c_ex]; try apply I.
    - rewrite insert_length. split; [apply (ci_lv _ _ _ _ I)|]. split; [apply (ci_lf _ _ _ _ I)|]. split; [apply (ci_lo _ _ _ _ I)|]. split; [apply (ci_ll _ _ _ _ I)|apply (ci_lg _ _ _ _ I)].
    - unfold hand. rewrite Hpc. reflexivity.
    - intros b' g' Hg'. split; [apply (ci_head _ _ _ _ I _ _ Hg')|]. intros w Hw. rewrite list_lookup_insert_ne; [apply (ci_head _ _ _ _ I _ _ Hg'); exact Hw|]. congruence.
    - intros b' g' p w H1 H2. apply Hst. eapply (ci_chain _ _ _ _ I); eauto.
    - intros p Hp. rewrite lkd_insert by exact Hlen. unfold lvc. rewrite Hpc. cbn [cgo c_pc]. unfold at_. unfold tb. cbn [cgo c_prog]. rewrite Ep. cbn [tkey op_key]. case_decide; [subst p; rewrite Hdead; cbn; lia|lia].
    - intros p Hp. unfold holds_lock. rewrite Hlk. unfold lock_of. cbn [cgo c_pc]. unfold tb. cbn [cgo c_prog]. rewrite Ep. cbn [tkey op_key]. lia.
    - unfold pend. rewrite Hpc. cbn. lia.
    - split.
      + eapply tl_go; [exact Ep|apply (ci_tl _ _ _ _ I t); eapply elem_of_list_lookup_2; exact Hi|exact Hg|]. cbn. auto.
      + unfold tp, tb. cbn [cgo c_prog c_pc]. rewrite Ep. cbn [tkey op_key put_value c_values]. rewrite list_lookup_insert by exact Hlen. reflexivity.
    - auto.
    - intros j tj x Hne Hj Hx. eapply (agree_ne _ _ (bkt (kf v))); cbn; eauto. intros <-. eapply (priv_other s ls G F i t j tj); eauto.
    - eapply vec_same; eauto. unfold proj. rewrite Hpc. reflexivity.
    - unfold ins, leaving, logged. cbn [cgo c_prog c_pc c_log]. rewrite Hpc. reflexivity.
    - intros p w Hpw. left. unfold ins, leaving, logged in *. cbn [cgo c_prog c_pc c_log] in Hpw. rewrite Hpc. exact Hpw.
  Qed.

  Let kd_cons' := UnorderedProofs.kd_cons kf hash keq true (seq 0) (fun n => reflexivity _) keq_refl keq_sym keq_trans Hhash bc E Hbc HE Hmax.
  Let kd_perm' := UnorderedProofs.kd_perm_iff kf hash keq true (seq 0) (fun n => reflexivity _) keq_refl keq_sym keq_trans Hhash bc E Hbc HE Hmax.

  Lemma step_set_head s ls G F i t v rest g : cinv s ls G F -> ls !! i = Some t -> c_prog t = CInsert v :: rest -> G !! bkt (kf v) = Some g ->
    c_pc t = ISetB -> g.1 = None -> nomatch (kf v) g.2.*2 -> c_values s !! bkt (kf v) = Some (Some v) ->
    cinv (put_occ s (bkt (kf v)) true) (<[i := cgo t (IUnlB (Some (bkt (kf v))))]> ls) (<[bkt (kf v) := (Some v, g.2)]> G) F.
  Proof using All.
    intros I Hi Ep Hg Hpc Hnone Hnm Hval. set (b := bkt (kf v)) in *. pose proof (cf_head_range s ls G F I _ _ Hg) as Hb.
    assert (Htb : tb t = b) by (unfold tb; rewrite Ep; reflexivity).
    assert (Hlen : (b < length (c_occ s))%nat) by (rewrite (ci_lo _ _ _ _ I); lia).
    assert (HlenG : (b < length G)%nat) by (rewrite (ci_lg _ _ _ _ I); lia).
    assert (Hlk : lock_of t = Some b) by (unfold lock_of; rewrite Hpc, Htb; reflexivity).
    assert (Hocc : c_occ s !! b = Some false). { destruct (ci_head _ _ _ _ I _ _ Hg) as [-> _]. rewrite Hnone. reflexivity. }
    assert (Hst : forall p w, stored_at s p w -> stored_at (put_occ s b true) p w).
    { intros p w [H1 H2]. split; cbn [put_occ c_values c_occ]; [exact H1|]. rewrite list_lookup_insert_ne; [exact H2|]. intros <-. congruence. }
    assert (Hsb : stored_at (put_occ s b true) b v). { split; cbn [put_occ c_values c_occ]; [exact Hval|]. rewrite list_lookup_insert by exact Hlen. reflexivity. }
    assert (HG : forall b' g', <[b := (Some v, g.2)]> G !! b' = Some g' -> (b' = b /\ g' = (Some v, g.2)) \/ (b' <> b /\ G !! b' = Some g')).
    { intros b' g' H. apply list_lookup_insert_Some in H as [(-> & -> & _)|[Hne H]]; auto. }
    assert (Hgv : gvals (Some v, g.2) = v :: gvals g) by (unfold gvals; rewrite Hnone; reflexivity).
    destruct (bind_split gvals G b g Hg) as (rv & EV1 & EV2 & _). destruct (bind_split gpos G b g Hg) as (rp & EP1 & EP2 & _).
    eapply (cupd s ls G F i t); try eassumption; try apply gext_refl; cbn [put_occ c_values c_occ c_off c_locks c_count c_ex]; try apply I.
    - rewrite !insert_length. split; [apply (ci_lv _ _ _ _ I)|]. split; [apply (ci_lf _ _ _ _ I)|]. split; [apply (ci_lo _ _ _ _ I)|]. split; [apply (ci_ll _ _ _ _ I)|apply (ci_lg _ _ _ _ I)].
    - unfold hand. rewrite Hpc. cbn [cgo c_pc]. rewrite EP2, EP1. reflexivity.
    - intros b' g' H. destruct (HG _ _ H) as [[-> ->]|[Hne H']].
      + rewrite list_lookup_insert by exact Hlen. split; [reflexivity|]. cbn. intros w [= <-]. exact Hval.
      + rewrite list_lookup_insert_ne by congruence. apply (ci_head _ _ _ _ I _ _ H').
    - intros b' g' H. destruct (HG _ _ H) as [[-> ->]|[Hne H']]; [exact (ci_link _ _ _ _ I _ _ Hg)|exact (ci_link _ _ _ _ I _ _ H')].
    - intros b' g' p w H Hp. apply Hst. destruct (HG _ _ H) as [[-> ->]|[Hne H']]; eapply (ci_chain _ _ _ _ I); eauto.
    - intros p Hp. rewrite list_lookup_insert_ne; [exact (ci_free _ _ _ _ I p Hp)|]. pose proof (cf_free_range s ls G F I p Hp). lia.
    - intros p Hp. rewrite lk_insert by exact Hlen. unfold lvc. rewrite Hpc, Htb. cbn [cgo c_pc]. unfold at_. case_decide; [subst p; unfold lk; rewrite Hocc; cbn; lia|lia].
    - intros p Hp. unfold holds_lock. rewrite Hlk. unfold lock_of. cbn [cgo c_pc]. unfold tb. cbn [cgo c_prog]. rewrite Ep. cbn [tkey op_key]. fold b. lia.
    - unfold pend. rewrite Hpc. cbn [cgo c_pc]. rewrite EV2, EV1, Hgv. cbn [app length]. lia.
    - intros b' g' w H Hw. destruct (HG _ _ H) as [[-> ->]|[Hne H']]; [|eapply (ci_bkt _ _ _ _ I); eauto]. rewrite Hgv in Hw. apply elem_of_cons in Hw as [-> |Hw]; [reflexivity|]. eapply (ci_bkt _ _ _ _ I); eauto.
    - intros b' g' H. destruct (HG _ _ H) as [[-> ->]|[Hne H']]; [|eapply (ci_kd _ _ _ _ I); eauto]. rewrite Hgv. apply kd_cons'. split; [|eapply (ci_kd _ _ _ _ I); eauto].
      intros w Hw. apply Hnm. unfold gvals in Hw. rewrite Hnone in Hw. exact Hw.
    - split.
      + pose proof (ci_tl _ _ _ _ I t (elem_of_list_lookup_2 _ _ _ Hi)) as [[T1 _] _]. unfold tl. cbn [cgo c_prog c_pc]. split; [exact T1|]. rewrite Ep. intros g' _. exact Logic.I.
      + unfold tp. cbn [cgo c_prog c_pc]. rewrite Ep. exact Logic.I.
    - intros j tj Hne Hj [T1 T2]. destruct (decide (c_prog tj <> [] /\ tb tj = b)) as [[Hp Hbj]|Hn].
      2: { apply tl_other; [|split; assumption]. intros Hp Hbj. apply Hn. auto. }
      split; [exact T1|]. unfold tb in Hbj. destruct (c_prog tj) as [|op rj] eqn:Ej; [done|]. rewrite Hbj in *. intros g' Hg'. rewrite list_lookup_insert in Hg' by exact HlenG. injection Hg' as <-.
      specialize (T2 g Hg). assert (Hnl : lock_at b (c_pc tj) <> Some b).
      { intros Hl. eapply (cf_lock_excl s ls G F I j i tj t b); eauto; [lia|]. rewrite lock_of_at. unfold tb. rewrite Ej, Hbj. exact Hl. }
      destruct op; [eapply knows_head; eauto|apply knows_find_head; auto|apply knows_find_head; auto].
    - intros j tj x Hne Hj Hx. eapply (agree_ne _ _ b); cbn; eauto. intros <-. eapply (priv_other s ls G F i t j tj); eauto.
    - eapply vec_same; eauto. unfold proj. rewrite Hpc. reflexivity.
    - assert (E1 : ins (cgo t (IUnlB (Some b))) = ins t ++ [(b, v)]).
      { unfold ins, leaving, logged. cbn [cgo c_prog c_pc c_log]. rewrite Hpc, Ep. rewrite app_nil_r. reflexivity. }
      rewrite E1, fmap_app. rewrite EV2, EV1, Hgv. cbn [fmap list_fmap snd app].
      rewrite app_assoc. apply Permutation_cons_append.
    - eapply gext_insert; [exact Hg|congruence|]. exists []. rewrite app_nil_r. reflexivity.
    - intros p w Hpw. unfold ins, leaving, logged in *. cbn [cgo c_prog c_pc c_log] in Hpw. rewrite Hpc, Ep in *. rewrite app_nil_r. apply elem_of_app in Hpw as [Hpw|Hpw]; [left; exact Hpw|].
      apply elem_of_list_singleton in Hpw. injection Hpw as -> ->. right. exists b, (Some v, g.2). rewrite list_lookup_insert by exact HlenG. split; [reflexivity|]. left. auto.
  Qed.
  (** the three writes into the excess entry before it is linked *)
  Lemma step_fill s ls G F i t v rest g e p pc' s' : cinv s ls G F -> ls !! i = Some t -> c_prog t = CInsert v :: rest -> G !! bkt (kf v) = Some g ->
    ready g (bkt (kf v)) (kf v) e -> lock_of t = Some e -> hand t = [p] ->
    (c_pc t = IConL e p /\ pc' = IOffL e p /\ s' = put_value s p (Some v) \/ c_pc t = IOffL e p /\ pc' = ICntL e p /\ s' = put_off s p 0 \/ c_pc t = ISetL e p /\ pc' = ILinkL e p /\ s' = put_occ s p true) ->
    cinv s' (<[i := cgo t pc']> ls) G F.
  Proof using All.
    intros I Hi Ep Hg Hrd Hlk Hhand Hcase.
    assert (Hin : t ∈ ls) by (eapply elem_of_list_lookup_2; exact Hi).
    assert (Hph : p ∈ hand t) by (rewrite Hhand; left).
    pose proof (cf_hand_range s ls G F I t p Hin Hph) as Hrange.
    pose proof (ci_tl _ _ _ _ I t Hin) as [Htl Htp]. unfold tp in Htp. rewrite Ep in Htp.
    assert (Hocc : c_occ s !! p = Some false). { destruct Hcase as [(Ec & _)|[(Ec & _)|(Ec & _)]]; rewrite Ec in Htp; tauto. }
    assert (Hlkocc : lk (c_occ s) p = false) by (unfold lk; rewrite Hocc; reflexivity).
    assert (L1 : (p < length (c_values s))%nat) by (rewrite (ci_lv _ _ _ _ I); lia).
    assert (L2 : (p < length (c_off s))%nat) by (rewrite (ci_lf _ _ _ _ I); lia).
    assert (L3 : (p < length (c_occ s))%nat) by (rewrite (ci_lo _ _ _ _ I); lia).
    assert (Hnode : forall b' g', G !! b' = Some g' -> p ∉ b' :: gpos g') by (intros b' g' H; eapply (cf_hand_chain s ls G F I t); eauto).
    assert (Hfr : p ∉ F) by (eapply (cf_hand_free s ls G F I t); eauto).
    assert (Hsame : forall x, x <> p -> agree s s' x).
    { intros x Hx. eapply (agree_ne _ _ p); [congruence| | |]; destruct Hcase as [(_ & _ & ->)|[(_ & _ & ->)|(_ & _ & ->)]]; cbn; eauto. }
    assert (Hst : forall q w, stored_at s q w -> stored_at s' q w).
    { intros q w [H1 H2]. destruct (Hsame q) as (A1 & A2 & _); [intros ->; congruence|]. split; congruence. }
    assert (Hlen : length (c_values s') = n /\ length (c_off s') = n /\ length (c_occ s') = n /\ length (c_locks s') = n /\ length G = bc).
    { destruct I. destruct Hcase as [(_ & _ & ->)|[(_ & _ & ->)|(_ & _ & ->)]]; cbn; rewrite ?insert_length; repeat split; assumption. }
    assert (Eh : hand (cgo t pc') = [p]). { unfold hand. cbn [cgo c_pc]. destruct Hcase as [(_ & -> & _)|[(_ & -> & _)|(_ & -> & _)]]; reflexivity. }
    assert (El : lock_of (cgo t pc') = Some e). { unfold lock_of. cbn [cgo c_pc]. destruct Hcase as [(_ & -> & _)|[(_ & -> & _)|(_ & -> & _)]]; reflexivity. }
    assert (Ee : ins (cgo t pc') = ins t). { unfold ins, leaving, logged. cbn [cgo c_pc c_prog c_log]. rewrite Ep. destruct Hcase as [(-> & -> & _)|[(-> & -> & _)|(-> & -> & _)]]; reflexivity. }
    assert (Hc1 : c_locks s' = c_locks s /\ c_ex s' = c_ex s /\ c_count s' - c_count s = pend (cgo t pc') - pend t).
    { unfold pend. cbn [cgo c_pc]. destruct Hcase as [(-> & -> & ->)|[(-> & -> & ->)|(-> & -> & ->)]]; cbn; repeat split; lia. }
    destruct Hc1 as (Ek & Ex & Ecount).
    eapply (cupd s ls G F i t); try eassumption; try apply gext_refl; rewrite ?Eh, ?Ee, ?Ek, ?Ex; try apply I; try reflexivity.
    - rewrite Hhand. reflexivity.
    - intros b' g' H. assert (b' <> p). { intros ->. apply (Hnode _ _ H). left. } destruct (Hsame b') as (A1 & A2 & _); [assumption|]. rewrite A1, A2. apply (ci_head _ _ _ _ I _ _ H).
    - intros b' g' H. pose proof (ci_link _ _ _ _ I _ _ H) as HL. destruct Hcase as [(_ & _ & ->)|[(_ & _ & ->)|(_ & _ & ->)]]; cbn [put_value put_off put_occ c_off]; auto. apply linked_ne; [exact (Hnode _ _ H)|exact HL].
    - intros b' g' q w H Hq. apply Hst. eapply (ci_chain _ _ _ _ I); eauto.
    - intros q Hq. destruct (Hsame q) as (_ & -> & _); [intros ->; contradiction|]. apply (ci_free _ _ _ _ I). exact Hq.
    - intros q o Hq. destruct (decide (q = p)) as [-> |Hne]; [|destruct (Hsame q Hne) as (_ & _ & A3); rewrite A3 in Hq; exact (ci_off _ _ _ _ I q o Hq)].
      destruct Hcase as [(_ & _ & ->)|[(_ & _ & ->)|(_ & _ & ->)]]; cbn [put_value put_off put_occ c_off] in Hq; try exact (ci_off _ _ _ _ I p o Hq).
      rewrite list_lookup_insert in Hq by exact L2. injection Hq as <-. lia.
    - intros q Hq. assert (Hd : c_pc t = IConL e p -> live (lkd (c_values s) p) = 0).
      { intros Hpc. rewrite (ci_live _ _ _ _ I) by lia. rewrite Hlkocc. rewrite (lvc_zero s ls G F i t); auto. unfold lvc. rewrite Hpc. reflexivity. }
      unfold lvc. cbn [cgo c_pc]. destruct Hcase as [(Ec & -> & ->)|[(Ec & -> & ->)|(Ec & -> & ->)]]; rewrite Ec; cbn [put_value put_off put_occ c_values c_occ].
      + rewrite lkd_insert by exact L1. unfold at_. case_decide; [subst q; rewrite (Hd Ec); cbn; lia|lia].
      + lia.
      + rewrite lk_insert by exact L3. unfold at_. case_decide; [subst q; rewrite Hlkocc; cbn; lia|lia].
    - intros q Hq. unfold holds_lock. rewrite El, Hlk. lia.
    - rewrite Ecount. lia.
    - split.
      + eapply tl_go; eauto. cbn [knows_op tkey op_key]. destruct Hcase as [(_ & -> & _)|[(_ & -> & _)|(_ & -> & _)]]; cbn [knows_ins]; exact Hrd.
      + unfold tp. cbn [cgo c_prog c_pc]. rewrite Ep. destruct Hcase as [(Ec & -> & ->)|[(Ec & -> & ->)|(Ec & -> & ->)]]; rewrite Ec in Htp; cbn [put_value put_off put_occ c_values c_occ c_off].
        * rewrite list_lookup_insert by exact L1. auto.
        * rewrite list_lookup_insert by exact L2. tauto.
        * rewrite list_lookup_insert by exact L3. tauto.
    - auto.
    - intros j tj x Hne Hj Hx. apply Hsame. intros ->. eapply (priv_other s ls G F i t j tj); eauto.
    - rewrite <- Ex. rewrite Ex. eapply vec_same; eauto. unfold proj. cbn [cgo c_pc]. destruct Hcase as [(-> & -> & _)|[(-> & -> & _)|(-> & -> & _)]]; reflexivity.
    - auto.
  Qed.

  Lemma step_link s ls G F i t v rest g e p : cinv s ls G F -> ls !! i = Some t -> c_prog t = CInsert v :: rest -> G !! bkt (kf v) = Some g ->
    c_pc t = ILinkL e p -> ready g (bkt (kf v)) (kf v) e ->
    cinv (put_off s e (Z.of_nat p - Z.of_nat e)) (<[i := cgo t (IUnlL e (Some p))]> ls) (<[bkt (kf v) := (g.1, g.2 ++ [(p, v)])]> G) F.
  Proof using All.
    intros I Hi Ep Hg Hpc Hrd. set (b := bkt (kf v)) in *. pose proof (cf_head_range s ls G F I _ _ Hg) as Hb.
    assert (Hin : t ∈ ls) by (eapply elem_of_list_lookup_2; exact Hi).
    assert (Hhand : hand t = [p]) by (unfold hand; rewrite Hpc; reflexivity).
    assert (Hph : p ∈ hand t) by (rewrite Hhand; left).
    pose proof (cf_hand_range s ls G F I t p Hin Hph) as Hrange.
    assert (Hlk : lock_of t = Some e) by (unfold lock_of; rewrite Hpc; reflexivity).
    pose proof (ci_tl _ _ _ _ I t Hin) as [Htl Htp]. unfold tp in Htp. rewrite Ep, Hpc in Htp. destruct Htp as (Hocc & Hval & Hoff).
    destruct Hrd as ((h & Eh & Hh) & Hnm & He).
    assert (Hnode : forall b' g', G !! b' = Some g' -> p ∉ b' :: gpos g') by (intros b' g' H; eapply (cf_hand_chain s ls G F I t); eauto).
    assert (Hen : e ∈ b :: gpos g) by (rewrite He; apply lend_elem).
    pose proof (cf_node_range s ls G F I b g e Hg Hen) as Herange.
    assert (L2 : (e < length (c_off s))%nat) by (rewrite (ci_lf _ _ _ _ I); lia).
    assert (HlenG : (b < length G)%nat) by (rewrite (ci_lg _ _ _ _ I); lia).
    assert (HG : forall b' g', <[b := (g.1, g.2 ++ [(p, v)])]> G !! b' = Some g' -> (b' = b /\ g' = (g.1, g.2 ++ [(p, v)])) \/ (b' <> b /\ G !! b' = Some g')).
    { intros b' g' H. apply list_lookup_insert_Some in H as [(-> & -> & _)|[Hne H]]; auto. }
    assert (Hgv : gvals (g.1, g.2 ++ [(p, v)]) = gvals g ++ [v]) by (unfold gvals; cbn; rewrite fmap_app, app_assoc; reflexivity).
    destruct (bind_split gvals G b g Hg) as (rv & EV1 & EV2 & _). destruct (bind_split gpos G b g Hg) as (rp & EP1 & EP2 & _).
    eapply (cupd s ls G F i t); try eassumption; try apply gext_refl; cbn [put_off c_values c_occ c_off c_locks c_count c_ex]; try apply I.
    - rewrite !insert_length. split; [apply (ci_lv _ _ _ _ I)|]. split; [apply (ci_lf _ _ _ _ I)|]. split; [apply (ci_lo _ _ _ _ I)|]. split; [apply (ci_ll _ _ _ _ I)|apply (ci_lg _ _ _ _ I)].
    - rewrite Hhand. unfold hand. cbn [cgo c_pc app]. rewrite EP2, EP1, gpos_app. rewrite <- !app_assoc. f_equiv. cbn [app]. rewrite <- Permutation_middle. reflexivity.
    - intros b' g' H. destruct (HG _ _ H) as [[-> ->]|[Hne H']]; [exact (ci_head _ _ _ _ I _ _ Hg)|exact (ci_head _ _ _ _ I _ _ H')].
    - intros b' g' H. destruct (HG _ _ H) as [[-> ->]|[Hne H']].
      + rewrite gpos_app. subst e. apply linked_snoc; [exact (ci_link _ _ _ _ I _ _ Hg)|eapply (cf_chain_nodup s ls G F I); eauto|exact (Hnode _ _ Hg)|exact Hoff].
      + apply linked_ne; [|exact (ci_link _ _ _ _ I _ _ H')]. eapply (cf_node_other s ls G F I b b' g g'); eauto.
    - intros b' g' q w H Hq. change (stored_at s q w). destruct (HG _ _ H) as [[-> ->]|[Hne H']]; [|eapply (ci_chain _ _ _ _ I); eauto].
      cbn [snd] in Hq. apply elem_of_app in Hq as [Hq|Hq]; [eapply (ci_chain _ _ _ _ I); eauto|]. apply elem_of_list_singleton in Hq. injection Hq as -> ->. split; assumption.
    - intros q o Hq. destruct (decide (q = e)) as [-> |Hne]; [|rewrite list_lookup_insert_ne in Hq by congruence; exact (ci_off _ _ _ _ I q o Hq)].
      rewrite list_lookup_insert in Hq by exact L2. injection Hq as <-. lia.
    - intros q Hq. unfold lvc. rewrite Hpc. cbn [cgo c_pc]. lia.
    - intros q Hq. unfold holds_lock. rewrite Hlk. unfold lock_of. cbn [cgo c_pc]. lia.
    - unfold pend. rewrite Hpc. cbn [cgo c_pc]. rewrite EV2, EV1, Hgv. rewrite !app_length. cbn [length]. lia.
    - intros b' g' w H Hw. destruct (HG _ _ H) as [[-> ->]|[Hne H']]; [|eapply (ci_bkt _ _ _ _ I); eauto]. rewrite Hgv in Hw. apply elem_of_app in Hw as [Hw|Hw]; [eapply (ci_bkt _ _ _ _ I); eauto|]. apply elem_of_list_singleton in Hw as ->. reflexivity.
    - intros b' g' H. destruct (HG _ _ H) as [[-> ->]|[Hne H']]; [|eapply (ci_kd _ _ _ _ I); eauto]. rewrite Hgv. apply (kd_perm' (v :: gvals g)); [apply Permutation_cons_append|]. apply kd_cons'. split; [|eapply (ci_kd _ _ _ _ I); eauto].
      intros w Hw. unfold gvals in Hw. rewrite Eh in Hw. cbn [olist app] in Hw. apply elem_of_cons in Hw as [-> |Hw]; [exact Hh|]. apply Hnm. exact Hw.
    - split.
      + unfold tl. cbn [cgo c_prog c_pc]. split; [apply Htl|]. rewrite Ep. cbn [tkey op_key]. fold b. intros g' Hg'. rewrite list_lookup_insert in Hg' by exact HlenG. injection Hg' as <-. cbn [knows_ins]. apply node_app. exact Hen.
      + unfold tp. cbn [cgo c_prog c_pc]. rewrite Ep. exact Logic.I.
    - intros j tj Hne Hj [T1 T2]. destruct (decide (c_prog tj <> [] /\ tb tj = b)) as [[Hp Hbj]|Hn].
      2: { apply tl_other; [|split; assumption]. intros Hp Hbj. apply Hn. auto. }
      split; [exact T1|]. unfold tb in Hbj. destruct (c_prog tj) as [|op rj] eqn:Ej; [done|]. rewrite Hbj in *. intros g' Hg'. rewrite list_lookup_insert in Hg' by exact HlenG. injection Hg' as <-.
      specialize (T2 g Hg). assert (Hnl : lock_at b (c_pc tj) <> Some (lend b (gpos g))).
      { intros Hl. eapply (cf_lock_excl s ls G F I j i tj t e); eauto. rewrite lock_of_at. unfold tb. rewrite Ej, Hbj. rewrite He. exact Hl. }
      pose proof (Hnode _ _ Hg) as Hpn.
      destruct op; [eapply knows_app; eauto; congruence|apply knows_find_app; auto|apply knows_find_app; auto].
    - intros j tj x Hne Hj Hx. eapply (agree_ne _ _ e); cbn; eauto. intros <-. eapply (priv_other s ls G F i t j tj); eauto 10.
    - eapply vec_same; eauto. unfold proj. rewrite Hpc. reflexivity.
    - assert (E1 : ins (cgo t (IUnlL e (Some p))) = ins t ++ [(p, v)]).
      { unfold ins, leaving, logged. cbn [cgo c_prog c_pc c_log]. rewrite Hpc, Ep. rewrite app_nil_r. reflexivity. }
      rewrite E1, fmap_app. rewrite EV2, EV1, Hgv. cbn [fmap list_fmap snd].
      rewrite <- (Permutation_cons_append (gvals g) v), <- (Permutation_cons_append (ins t).*2 v). rewrite <- Permutation_middle. reflexivity.
    - eapply gext_insert; [exact Hg|auto|]. exists [(p, v)]. reflexivity.
    - intros q w Hpw. unfold ins, leaving, logged in *. cbn [cgo c_prog c_pc c_log] in Hpw. rewrite Hpc, Ep in *. rewrite app_nil_r. apply elem_of_app in Hpw as [Hpw|Hpw]; [left; exact Hpw|].
      apply elem_of_list_singleton in Hpw. injection Hpw as -> ->. right. eexists b, _. rewrite list_lookup_insert by exact HlenG. split; [reflexivity|]. right. cbn. apply elem_of_app. right. left.
  Qed.

  (** *** the pop from the excess list *)
  Lemma qstep_pop (ctl : Z -> qkind -> nat -> cres Z) tid x (q : qthread Z) y q' k : tok E q -> q_prog q = [QPop k] -> q_log q = [] -> qstep ctl tid x q = Some (y, q') ->
    (q_prog q' = [QPop k] /\ q_log q' = []) \/ (q_prog q' = [] /\ q_pc q' = QIdle /\ exists r, q_log q' = [r] /\ forall z, r <> Pushed z).
  Proof.
    intros [_ Hok] Ep El Hst. unfold qstep in Hst. rewrite Ep in Hst.
    destruct (q_pc q) eqn:Epc; cbn [kind_of] in Hst; repeat case_match; try discriminate; injection Hst as <- <-; cbn [goto finish q_prog q_log q_pc]; rewrite ?Ep, ?El; auto;
      right; repeat split; eexists; (split; [reflexivity|]); try discriminate.
    all: exfalso; destruct Hok as (_ & _ & k' & rest & E0); rewrite Ep in E0; discriminate.
  Qed.
  Lemma sumZ_Permutation {A} (w : A -> Z) l l' : l ≡ₚ l' -> sumZ w l = sumZ w l'.
  Proof. induction 1; cbn; lia. Qed.
  Lemma proj_wf t : proj t = fresh_call [] \/ exists e q, c_pc t = IPop e q /\ proj t = q.
  Proof. unfold proj. destruct (c_pc t); eauto. Qed.
  Lemma proj_nopush s ls G F : cinv s ls G F -> forall w q, q ∈ proj <$> ls -> wpush w q = 0.
  Proof using All.
    intros I w q Hq. apply elem_of_list_fmap in Hq as (t & -> & Ht). pose proof (ci_tl _ _ _ _ I t Ht) as [[T0 T1] _].
    destruct (proj_wf t) as [-> |(e & q & Epc & ->)]; [apply wpush_fresh|].
    assert (Hq : q_prog q = [QPop KPopBack] /\ q_log q = []).
    { destruct (c_prog t) as [|op rest] eqn:Ep; [congruence|]. destruct (cf_bucket s ls G F I (bkt (tkey op))) as [g Hg]; [apply bucket_of_bkt|].
      specialize (T1 g Hg). rewrite Epc in T1. destruct op; [cbn in T1; tauto|contradiction|contradiction]. }
    destruct Hq as [Eq El]. unfold wpush, push_in_flight. rewrite Eq, El. cbn [pushed_by omap].
    assert (Hok : tok E q). { apply (i_tok _ _ _ _ _ _ (ci_vec _ _ _ _ I)). apply elem_of_list_fmap. exists t. split; [|exact Ht]. unfold proj. rewrite Epc. reflexivity. }
    destruct Hok as [_ Hok]. destruct (q_pc q) as [| | | | | | | | |p0 [[]|]]; try reflexivity. destruct Hok as (_ & _ & k' & rest & E0). rewrite Eq in E0. discriminate.
  Qed.
  Lemma step_pop s ls G F i t v rest g e q y q' : cinv s ls G F -> ls !! i = Some t -> c_prog t = CInsert v :: rest -> G !! bkt (kf v) = Some g ->
    c_pc t = IPop e q -> ready g (bkt (kf v)) (kf v) e -> q_prog q = [QPop KPopBack] -> q_log q = [] -> qstep (vctl E) i (c_ex s) q = Some (y, q') ->
    (q_prog q' = [QPop KPopBack] /\ q_log q' = [] /\ cinv (put_ex s y) (<[i := cgo t (IPop e q')]> ls) G F) \/
    (q_prog q' = [] /\ (forall z, last (q_log q') <> Some (Popped z)) /\ cinv (put_ex s y) (<[i := cgo t (IUnlL e None)]> ls) G F) \/
    (exists p F', q_prog q' = [] /\ last (q_log q') = Some (Popped (Z.of_nat p)) /\ F ≡ₚ p :: F' /\ cinv (put_ex s y) (<[i := cgo t (IConL e p)]> ls) G F').
  Proof using All.
    intros I Hi Ep Hg Hpc Hrd Eq El Hst.
    assert (Hin : t ∈ ls) by (eapply elem_of_list_lookup_2; exact Hi).
    pose proof (ci_tl _ _ _ _ I t Hin) as [Htl _].
    assert (Hpi : (proj <$> ls) !! i = Some q). { rewrite list_lookup_fmap, Hi. cbn. unfold proj. rewrite Hpc. reflexivity. }
    assert (Hqin : q ∈ proj <$> ls) by (eapply elem_of_list_lookup_2; exact Hpi).
    pose proof (i_tok _ _ _ _ _ _ (ci_vec _ _ _ _ I) q Hqin) as Htok.
    pose proof (step_inv (vctl E) E vm (fun _ => True) (vctl_ok E) _ _ _ _ _ _ _ (ci_vec _ _ _ _ I) Hpi Hst) as J.
    assert (Hen : e ∈ bkt (kf v) :: gpos g) by (destruct Hrd as (_ & _ & ->); apply lend_elem).
    assert (Hlk : lock_of t = Some e) by (unfold lock_of; rewrite Hpc; reflexivity).
    assert (Hins : forall pc, (forall r, pc <> IUnlB (Some r)) -> (forall e r, pc <> IUnlL e (Some r)) -> ins (cgo t pc) = ins t).
    { intros pc H1 H2. unfold ins, leaving, logged. cbn [cgo c_prog c_pc c_log]. rewrite Ep, Hpc. f_equal. destruct pc; try reflexivity; case_match; try reflexivity; subst; exfalso; [eapply H1|eapply H2]; reflexivity. }
    destruct (qstep_pop _ _ _ _ _ _ _ Htok Eq El Hst) as [[Ep' El']|(Ep' & Epc' & r & El' & Hr)].
    - left. split; [exact Ep'|]. split; [exact El'|].
      apply (cupd_quiet s ls G F i t); [exact I|exact Hi|reflexivity|reflexivity|reflexivity|apply (ci_ll _ _ _ _ I)| | |apply Hins; discriminate| | | | |exact J]; cbn [put_ex c_locks c_count c_ex].
      + unfold hand. rewrite Hpc. reflexivity.
      + intros p. unfold lvc. rewrite Hpc. reflexivity.
      + intros p Hp. unfold holds_lock. rewrite Hlk. unfold lock_of. cbn [cgo c_pc]. lia.
      + unfold pend. rewrite Hpc. cbn. lia.
      + eapply tl_go; eauto. cbn. auto.
      + unfold tp. cbn [cgo c_prog c_pc]. rewrite Ep. exact Logic.I.
    - right. assert (Hqi : <[i:=q']> (proj <$> ls) !! i = Some q'). { apply list_lookup_insert. apply lookup_lt_is_Some_1. eauto. }
      pose proof (inv_reset E _ _ _ i q' [] J Hqi Epc' ltac:(intros op Ho; inversion Ho)) as J'. rewrite list_insert_insert in J'.
      rewrite El'. cbn [last]. destruct r as [z|z| |].
      1: { exfalso. eapply Hr. reflexivity. }
      1: { right.
        assert (Hz : z ∈ Z.of_nat <$> F).
        { destruct (decide (z ∈ Z.of_nat <$> F)) as [|Hn]; [assumption|exfalso]. pose proof (i_cons _ _ _ _ _ _ J (fun a => if decide (a = z) then 1 else 0)) as HC.
          assert (H0 : sumZ (fun a => if decide (a = z) then 1 else 0) (Z.of_nat <$> F) = 0). { apply sumZ_zero. intros a Ha. case_decide; [subst; contradiction|reflexivity]. }
          cbn beta in HC. rewrite H0 in HC. rewrite (sumZ_insert _ _ _ _ _ Hpi) in HC.
          assert (H1 : sumZ (wpush (fun a => if decide (a = z) then 1 else 0)) (proj <$> ls) = 0). { apply sumZ_zero. intros a Ha. eapply proj_nopush; eauto. }
          assert (H2 : wpush (fun a => if decide (a = z) then 1 else 0) q = 0) by (eapply proj_nopush; eauto).
          assert (H3 : wpush (fun a => if decide (a = z) then 1 else 0) q' = 0). { unfold wpush, push_in_flight. rewrite El', Ep', Epc'. reflexivity. }
          assert (H4 : forall a : qthread Z, 0 <= wpop (fun a => if decide (a = z) then 1 else 0) a). { intros a. apply sumZ_nonneg. intros c _. case_decide; lia. }
          assert (H5 : wpop (fun a => if decide (a = z) then 1 else 0) q' = 1). { unfold wpop, pop_in_flight. rewrite El', Epc'. change (popped_by [Popped z]) with [z]. cbn [app sumZ]. rewrite decide_True by reflexivity. lia. }
          pose proof (sumZ_ge_elem (wpop (fun a => if decide (a = z) then 1 else 0)) _ _ _ (fun l _ => H4 l) Hqi) as H6.
          assert (H7 : 0 <= sumZ (wd (fun a => if decide (a = z) then 1 else 0)) (q_data y)). { apply sumZ_nonneg. intros [c|] _; cbn; [case_decide; lia|lia]. }
          lia. }
        apply elem_of_list_fmap in Hz as (p & -> & Hp). apply elem_of_Permutation in Hp as [F' HF].
        exists p, F'. split; [exact Ep'|]. split; [reflexivity|]. split; [exact HF|].
        assert (Hag : forall x, agree s (put_ex s y) x) by (intros x; repeat split).
        eapply (cupd s ls G F i t); try eassumption; try apply gext_refl; cbn [put_ex c_locks c_count c_ex c_values c_occ c_off]; try solve [apply I].
        + destruct I. repeat split; assumption.
        + assert (E1 : hand t = []) by (unfold hand; rewrite Hpc; reflexivity). assert (E2 : hand (cgo t (IConL e p)) = [p]) by reflexivity. rewrite E1, E2, HF. reflexivity.
        + intros r Hrr. apply (ci_free _ _ _ _ I). rewrite HF. right. exact Hrr.
        + intros r Hrr. unfold lvc. rewrite Hpc. cbn [cgo c_pc]. lia.
        + intros r Hrr. unfold holds_lock. rewrite Hlk. unfold lock_of. cbn [cgo c_pc]. lia.
        + unfold pend. rewrite Hpc. cbn. lia.
        + split; [eapply tl_go; eauto; cbn; exact Hrd|]. unfold tp. cbn [cgo c_prog c_pc]. rewrite Ep. cbn [put_ex c_occ]. apply (ci_free _ _ _ _ I). rewrite HF. left.
        + auto.
        + auto.
        + eapply inv_ext; [|exact J']. intros w. cbn beta. rewrite El'. change (popped_by [Popped (Z.of_nat p)]) with [Z.of_nat p]. change (pushed_by [Popped (Z.of_nat p)]) with (@nil Z). rewrite (sumZ_Permutation w _ _ (fmap_Permutation Z.of_nat _ _ HF)). cbn. lia.
        + rewrite Hins by discriminate. reflexivity.
        + intros r w Hrw. left. rewrite Hins in Hrw by discriminate. exact Hrw. }
      all: left; split; [exact Ep'|]; split; [discriminate|];
        apply (cupd_quiet s ls G F i t); [exact I|exact Hi|reflexivity|reflexivity|reflexivity|apply (ci_ll _ _ _ _ I)| | |apply Hins; discriminate| | | | |]; cbn [put_ex c_locks c_count c_ex];
        [unfold hand; rewrite Hpc; reflexivity|intros p; unfold lvc; rewrite Hpc; reflexivity
        |intros p Hp; unfold holds_lock; rewrite Hlk; unfold lock_of; cbn [cgo c_pc]; lia|unfold pend; rewrite Hpc; cbn; lia
        |eapply tl_go; eauto|unfold tp; cbn [cgo c_prog c_pc]; rewrite Ep; exact Logic.I
        |eapply inv_ext; [|exact J']; intros w; cbn beta; rewrite El'; unfold popped_by, pushed_by; cbn; lia].
  Qed.

  (** *** all steps *)
  Definition mono s s' : Prop := forall p v, stored_at s p v -> stored_at s' p v.
  Definition cnext s ls G F i s' t' : Prop := exists G' F', cinv s' (<[i := t']> ls) G' F' /\ gext G G' /\ mono s s'.
  Lemma cnext_same s ls G F i s' t' : cinv s' (<[i := t']> ls) G F -> c_values s' = c_values s -> c_occ s' = c_occ s -> cnext s ls G F i s' t'.
  Proof. intros I E1 E2. exists G, F. split; [exact I|]. split; [apply gext_refl|]. intros p v. unfold stored_at. rewrite E1, E2. auto. Qed.

  Definition quiet_pc (pc : upc) : bool :=
    match pc with
    | ICntB | ISetB | IConL _ _ | IOffL _ _ | ICntL _ _ | ISetL _ _ | ILinkL _ _ | IPop _ _ | IUnlB (Some _) | IUnlL _ (Some _) => false
    | _ => true
    end.
  Lemma quiet_facts t : quiet_pc (c_pc t) = true -> hand t = [] /\ (forall p, lvc p t = 0) /\ pend t = 0 /\ proj t = fresh_call [] /\ ins t = logged t /\ (forall s, tp s t).
  Proof.
    intros H. unfold hand, lvc, pend, proj, ins, leaving, tp. destruct (c_pc t); cbn [quiet_pc] in H; try discriminate; try (destruct r; [discriminate|]);
      repeat split; destruct (c_prog t) as [|[]]; rewrite ?app_nil_r; auto.
  Qed.
  (** a local step between two states of this kind *)
  Lemma quiet_go s ls G F i t op rest g pc : cinv s ls G F -> ls !! i = Some t -> c_prog t = op :: rest -> G !! bkt (tkey op) = Some g ->
    quiet_pc (c_pc t) = true -> quiet_pc pc = true -> lock_of (cgo t pc) = lock_of t -> knows_op op g (bkt (tkey op)) (tkey op) pc -> cnext s ls G F i s (cgo t pc).
  Proof using All.
    intros I Hi Ep Hg Hq Hq' Hlk Hk. apply cnext_same; [|reflexivity|reflexivity].
    destruct (quiet_facts t Hq) as (A1 & A2 & A3 & A4 & A5 & _). destruct (quiet_facts (cgo t pc) Hq') as (B1 & B2 & B3 & B4 & B5 & B6).
    apply (cupd_local s ls G F i t);
      [exact I|exact Hi|congruence|intros p; rewrite A2, B2; reflexivity|rewrite A5, B5; reflexivity|exact Hlk|congruence|congruence
      |eapply tl_go; eauto; apply (ci_tl _ _ _ _ I t); eapply elem_of_list_lookup_2; exact Hi|apply B6].
  Qed.
  Lemma quiet_finish s ls G F i t op rest r : cinv s ls G F -> ls !! i = Some t -> c_prog t = op :: rest ->
    quiet_pc (c_pc t) = true -> lock_of t = None -> (forall p, r <> RInserted p) -> cnext s ls G F i s (cfinish t op r).
  Proof using All.
    intros I Hi Ep Hq Hlk Hr. apply cnext_same; [|reflexivity|reflexivity].
    destruct (quiet_facts t Hq) as (A1 & A2 & A3 & A4 & A5 & _). destruct (quiet_facts (cfinish t op r) eq_refl) as (B1 & B2 & B3 & B4 & B5 & B6).
    apply (cupd_local s ls G F i t);
      [exact I|exact Hi|congruence|intros p; rewrite A2, B2; reflexivity|
      |rewrite Hlk; reflexivity|congruence|congruence|eapply tl_finish; eauto; apply (ci_tl _ _ _ _ I t); eapply elem_of_list_lookup_2; exact Hi|apply B6].
    rewrite A5, ins_finish. cbn. destruct op, r; try (rewrite app_nil_r; reflexivity). exfalso. eapply Hr. reflexivity.
  Qed.
  Lemma quiet_lock s ls G F i t op rest g pc p : cinv s ls G F -> ls !! i = Some t -> c_prog t = op :: rest -> G !! bkt (tkey op) = Some g ->
    quiet_pc (c_pc t) = true -> quiet_pc pc = true -> (p < n)%nat -> c_locks s !! p = Some false -> lock_of t = None -> lock_of (cgo t pc) = Some p ->
    knows_op op g (bkt (tkey op)) (tkey op) pc -> cnext s ls G F i (put_lock s p true) (cgo t pc).
  Proof using All.
    intros I Hi Ep Hg Hq Hq' Hp Hl Hn Hlk Hk. apply cnext_same; [|reflexivity|reflexivity].
    destruct (quiet_facts t Hq) as (A1 & A2 & A3 & A4 & A5 & _). destruct (quiet_facts (cgo t pc) Hq') as (B1 & B2 & B3 & B4 & B5 & B6).
    apply (cupd_lock s ls G F i t);
      [exact I|exact Hi|exact Hp|unfold lk; rewrite Hl; reflexivity|split; [exact Hn|exact Hlk]|congruence|intros q; rewrite A2, B2; reflexivity
      |rewrite A5, B5; reflexivity|congruence|congruence
      |eapply tl_go; eauto; apply (ci_tl _ _ _ _ I t); eapply elem_of_list_lookup_2; exact Hi|apply B6].
  Qed.
  Lemma held s ls G F i t p : cinv s ls G F -> ls !! i = Some t -> lock_of t = Some p -> (p < n)%nat -> lk (c_locks s) p = true.
  Proof using All.
    intros I Hi Hl Hp. pose proof (ci_lock _ _ _ _ I p Hp) as H. pose proof (sumZ_ge_elem (holds_lock p) ls i t (fun l _ => holds_nonneg p l) Hi) as H2.
    unfold holds_lock at 1 in H2. rewrite Hl, decide_True in H2 by reflexivity. destruct (lk (c_locks s) p); [reflexivity|]. cbn in H. lia.
  Qed.
  (** releasing the lock, without and with success *)
  Lemma quiet_unlock s ls G F i t v rest p : cinv s ls G F -> ls !! i = Some t -> c_prog t = CInsert v :: rest ->
    quiet_pc (c_pc t) = true -> (p < n)%nat -> lock_of t = Some p -> cnext s ls G F i (put_lock s p false) (cgo t UFullCheck).
  Proof using All.
    intros I Hi Ep Hq Hp Hl. apply cnext_same; [|reflexivity|reflexivity].
    destruct (quiet_facts t Hq) as (A1 & A2 & A3 & A4 & A5 & _). destruct (quiet_facts (cgo t UFullCheck) eq_refl) as (B1 & B2 & B3 & B4 & B5 & B6).
    destruct (cf_bucket s ls G F I (bkt (kf v))) as [g Hg]; [apply bucket_of_bkt|].
    apply (cupd_lock s ls G F i t);
      [exact I|exact Hi|exact Hp|eapply held; eauto|split; [exact Hl|reflexivity]|congruence|intros q; rewrite A2, B2; reflexivity
      |rewrite A5, B5; reflexivity|congruence|congruence
      |eapply (tl_go _ _ _ _ _ _ Ep); [apply (ci_tl _ _ _ _ I t); eapply elem_of_list_lookup_2; exact Hi|exact Hg|exact Logic.I]|apply B6].
  Qed.
  Lemma leave_success s ls G F i t v rest p q : cinv s ls G F -> ls !! i = Some t -> c_prog t = CInsert v :: rest ->
    (c_pc t = IUnlB (Some q) \/ exists e, c_pc t = IUnlL e (Some q)) -> (p < n)%nat -> lock_of t = Some p -> cnext s ls G F i (put_lock s p false) (cfinish t (CInsert v) (RInserted q)).
  Proof using All.
    intros I Hi Ep Hpc Hp Hl. apply cnext_same; [|reflexivity|reflexivity].
    apply (cupd_lock s ls G F i t); [exact I|exact Hi|exact Hp|eapply held; eauto|split; [exact Hl|reflexivity]| | | | | | |].
    - unfold hand at 2. destruct Hpc as [-> |[e ->]]; reflexivity.
    - intros r. unfold lvc at 2. destruct Hpc as [-> |[e ->]]; reflexivity.
    - rewrite ins_finish. unfold ins, leaving. rewrite Ep. destruct Hpc as [-> |[e ->]]; reflexivity.
    - unfold pend at 2. destruct Hpc as [-> |[e ->]]; reflexivity.
    - unfold proj at 2. destruct Hpc as [-> |[e ->]]; reflexivity.
    - eapply tl_finish; eauto. apply (ci_tl _ _ _ _ I t). eapply elem_of_list_lookup_2; exact Hi.
    - apply tp_idle.
  Qed.

  (** the walk of find *)
  Definition in_find (c : fctx) (pc : upc) : Prop := exists i, pc = FOcc c i \/ pc = FVal c i \/ pc = FOff c i \/ pc = FAdd c i.
  Lemma seen_off s ls G F b g k i : cinv s ls G F -> G !! b = Some g -> seen g b k i -> exists o : Z, c_off s !! i = Some o /\
    ((o = 0 /\ i = lend b (gpos g) /\ nomatch k g.2.*2) \/ (o <> 0 /\ exists j es1 w es2, g.2 = es1 ++ (j, w) :: es2 /\ nomatch k es1.*2 /\ Z.of_nat i + o = Z.of_nat j)).
  Proof using All.
    intros I Hb (es1 & es2 & Eg & El & Hn). pose proof (ci_link _ _ _ _ I b g Hb) as HL. unfold gpos in *. rewrite Eg, fmap_app in *.
    pose proof (linked_split _ _ _ _ HL) as HL2. rewrite El in HL2. destruct es2 as [|[j w] es2]; cbn [fmap list_fmap fst linked] in HL2.
    - exists 0. split; [exact HL2|]. left. rewrite !app_nil_r. auto.
    - destruct HL2 as (H1 & H2 & _). eexists. split; [exact H2|]. right. split; [lia|]. exists j, es1, w, es2. repeat split; auto. lia.
  Qed.
  Lemma next_entry_nat i o j : Z.of_nat i + o = Z.of_nat j -> next_entry i o = Some j.
  Proof. intros H. unfold next_entry. rewrite H. rewrite (proj2 (Z.leb_le _ _)) by lia. rewrite Nat2Z.id. reflexivity. Qed.
  Lemma lend_seen s ls G F b g i : cinv s ls G F -> G !! b = Some g -> i ∈ b :: gpos g -> c_off s !! i = Some 0 <-> i = lend b (gpos g).
  Proof using All.
    intros I Hb Hi. destruct (cf_walk_off s ls G F I b g i Hb Hi) as (o & Ho & H1 & _). rewrite Ho. split; [intros [= ->]; apply H1; reflexivity|]. intros H. f_equal. apply H1. exact H.
  Qed.
  (** what each access of the walk yields *)
  Lemma walk_occ s ls G F b g k c i : cinv s ls G F -> G !! b = Some g -> (isL c = true -> g.1 <> None) -> walk c g b k (FOcc c i) ->
    exists o : bool, c_occ s !! i = Some o /\ walk c g b k (if o then FVal c i else FOff c i).
  Proof using All.
    intros I Hb HL [Hc Hh]. destruct (ci_head _ _ _ _ I b g Hb) as [Ho Hv]. destruct Hc as [-> |(es1 & w & es2 & Eg & Hn)].
    - exists (is_some g.1). split; [exact Ho|]. destruct g.1 as [h|] eqn:E1; cbn [is_some].
      + split; [left; reflexivity|]. split; [exact Hh|]. rewrite E1. discriminate.
      + split; [exists [], g.2; repeat split; auto; intros w Hw; inversion Hw|]. intros Hl. exfalso. apply (HL Hl). reflexivity.
    - destruct (ci_chain _ _ _ _ I b g i w Hb) as [_ H2]; [rewrite Eg; apply elem_of_app; right; left|]. exists true. split; [exact H2|].
      split; [right; eauto 10|]. split; [exact Hh|]. intros ->. exfalso.
      assert (Hbn : b ∈ gpos g) by (unfold gpos; rewrite Eg, fmap_app; apply elem_of_app; right; left). pose proof (cf_chain_range s ls G F I b g b Hb Hbn). pose proof (cf_head_range s ls G F I b g Hb). lia.
  Qed.
  Lemma walk_val s ls G F b g k c i : cinv s ls G F -> G !! b = Some g -> walk c g b k (FVal c i) ->
    exists v, c_values s !! i = Some (Some v) /\ v ∈ gvals g /\ stored_at s i v /\ (keq (kf v) k = false -> walk c g b k (FOff c i)).
  Proof using All.
    intros I Hb (Hc & Hh & Hne). destruct (ci_head _ _ _ _ I b g Hb) as [Ho Hv]. destruct Hc as [-> |(es1 & w & es2 & Eg & Hn)].
    - specialize (Hne eq_refl). destruct g.1 as [h|] eqn:E1; [|done]. exists h. split; [auto|]. split; [unfold gvals; rewrite E1; left|]. split; [split; auto|].
      intros Hk. split; [exists [], g.2; repeat split; auto; intros w Hw; inversion Hw|]. intros _. exists h. auto.
    - assert (Hin : (i, w) ∈ g.2) by (rewrite Eg; apply elem_of_app; right; left).
      pose proof (ci_chain _ _ _ _ I b g i w Hb Hin) as [H1 H2]. exists w. split; [exact H1|]. split; [unfold gvals; apply elem_of_app; right; apply elem_of_list_fmap; exists (i, w); auto|]. split; [split; auto|].
      intros Hk. split.
      + exists (es1 ++ [(i, w)]), es2. rewrite <- app_assoc. split; [exact Eg|]. rewrite !fmap_app. split; [apply lend_snoc|].
        intros u Hu. apply elem_of_app in Hu as [Hu|Hu]; [auto|]. apply elem_of_list_singleton in Hu as ->. exact Hk.
      + intros Hl. destruct (Hh Hl) as [-> |H]; [|exact H]. exfalso.
        assert (Hbn : b ∈ gpos g) by (unfold gpos; rewrite Eg, fmap_app; apply elem_of_app; right; left). pose proof (cf_chain_range s ls G F I b g b Hb Hbn). pose proof (cf_head_range s ls G F I b g Hb). lia.
  Qed.
  Lemma walk_off s ls G F b g k c i : cinv s ls G F -> G !! b = Some g -> walk c g b k (FOff c i) ->
    exists o : Z, c_off s !! i = Some o /\ (o = 0 -> nomatch k g.2.*2 /\ i = lend b (gpos g)) /\ (o <> 0 -> walk c g b k (FAdd c i)).
  Proof using All.
    intros I Hb [Hs Hh]. destruct (seen_off s ls G F b g k i I Hb Hs) as (o & Ho & Hc). exists o. split; [exact Ho|].
    split; [intros ->; destruct Hc as [(_ & H1 & H2)|[H _]]; [auto|lia]|]. intros Hne. split; [exact Hs|]. split; [exact Hh|].
    intros Hl. apply Hne. pose proof (proj2 (lend_seen s ls G F b g i I Hb (seen_node _ _ _ _ Hs)) Hl) as H0. congruence.
  Qed.
  Lemma walk_add s ls G F b g k c i : cinv s ls G F -> G !! b = Some g -> walk c g b k (FAdd c i) ->
    exists (o : Z) j, c_off s !! i = Some o /\ next_entry i o = Some j /\ walk c g b k (FOcc c j).
  Proof using All.
    intros I Hb (Hs & Hh & Hl). destruct (seen_off s ls G F b g k i I Hb Hs) as (o & Ho & [(_ & H1 & _)|(Hne & j & es1 & w & es2 & Eg & Hn & Ej)]); [contradiction|].
    exists o, j. split; [exact Ho|]. split; [apply next_entry_nat; exact Ej|]. split; [right; eauto 10|]. intros Hc. right. auto.
  Qed.

  (** the counter *)
  Lemma step_cnt s ls G F i t op rest g pc' : cinv s ls G F -> ls !! i = Some t -> c_prog t = op :: rest -> G !! bkt (tkey op) = Some g ->
    (c_pc t = ICntB /\ pc' = ISetB \/ exists e p, c_pc t = ICntL e p /\ pc' = ISetL e p) -> cinv (put_count s (c_count s + 1)) (<[i := cgo t pc']> ls) G F.
  Proof using All.
    intros I Hi Ep Hg Hcase. pose proof (ci_tl _ _ _ _ I t (elem_of_list_lookup_2 _ _ _ Hi)) as [Htl Htp].
    apply (cupd_quiet s ls G F i t); [exact I|exact Hi|reflexivity|reflexivity|reflexivity|apply (ci_ll _ _ _ _ I)| | | | | | | |]; cbn [put_count c_locks c_count c_ex].
    - unfold hand. destruct Hcase as [[-> ->]|(e & p & -> & ->)]; reflexivity.
    - intros p. unfold lvc. destruct Hcase as [[-> ->]|(e & q & -> & ->)]; reflexivity.
    - unfold ins, leaving, logged. cbn [cgo c_prog c_pc c_log]. destruct Hcase as [[-> ->]|(e & q & -> & ->)]; reflexivity.
    - intros p Hp. unfold holds_lock, lock_of. destruct Hcase as [[-> ->]|(e & q & -> & ->)]; cbn [cgo c_pc]; unfold tb; cbn [cgo c_prog]; lia.
    - unfold pend. destruct Hcase as [[-> ->]|(e & q & -> & ->)]; cbn; lia.
    - eapply tl_go; eauto. destruct Htl as [_ T]. rewrite Ep in T. specialize (T g Hg). destruct op; destruct Hcase as [[Epc ->]|(e & q & Epc & ->)]; rewrite Epc in T; exact T.
    - unfold tp in *. cbn [cgo c_prog c_pc]. destruct Hcase as [[Epc ->]|(e & q & Epc & ->)]; rewrite Epc in Htp; exact Htp.
    - eapply vec_same; eauto. unfold proj. destruct Hcase as [[-> ->]|(e & q & -> & ->)]; reflexivity.
  Qed.
  (** the pop of an excess position is entered *)
  Lemma step_enter_pop s ls G F i t v rest g e : cinv s ls G F -> ls !! i = Some t -> c_prog t = CInsert v :: rest -> G !! bkt (kf v) = Some g ->
    quiet_pc (c_pc t) = true -> lock_of t = Some e -> ready g (bkt (kf v)) (kf v) e -> cinv s (<[i := cgo t (IPop e pop_call)]> ls) G F.
  Proof using All.
    intros I Hi Ep Hg Hq Hlk Hrd. destruct (quiet_facts t Hq) as (A1 & A2 & A3 & A4 & A5 & _).
    pose proof (ci_tl _ _ _ _ I t (elem_of_list_lookup_2 _ _ _ Hi)) as [Htl Htp].
    apply (cupd_quiet s ls G F i t); [exact I|exact Hi|reflexivity|reflexivity|reflexivity|apply (ci_ll _ _ _ _ I)|rewrite A1; reflexivity|intros p; rewrite A2; reflexivity| | | | | |].
    - rewrite A5. unfold ins, leaving, logged. cbn [cgo c_prog c_pc c_log]. rewrite Ep, app_nil_r. reflexivity.
    - intros p Hp. unfold holds_lock. rewrite Hlk. unfold lock_of. cbn [cgo c_pc]. lia.
    - rewrite A3. cbn. lia.
    - eapply tl_go; eauto. cbn. auto.
    - unfold tp. cbn [cgo c_prog c_pc]. rewrite Ep. exact Logic.I.
    - change (proj (cgo t (IPop e pop_call))) with (fresh_call [QPop KPopBack]).
      assert (Hpi : (proj <$> ls) !! i = Some (fresh_call [])) by (rewrite list_lookup_fmap, Hi; cbn; rewrite A4; reflexivity).
      pose proof (inv_reset E _ _ _ i _ [QPop KPopBack] (ci_vec _ _ _ _ I) Hpi eq_refl) as J.
      eapply inv_ext; [|apply J; intros op Hop; apply elem_of_list_singleton in Hop as ->; reflexivity]. intros w. cbn beta. cbn [fresh_call q_log]. unfold pushed_by, popped_by. cbn. lia.
  Qed.

  (** every step of a find *)
  Lemma step_find s ls G F i t k rest s' t' : cinv s ls G F -> ls !! i = Some t -> c_prog t = CFind k :: rest -> ustep kf hash keq bc E i s t = Some (s', t') -> cnext s ls G F i s' t'.
  Proof using All.
    intros I Hi Ep Hst. pose proof (ci_tl _ _ _ _ I t (elem_of_list_lookup_2 _ _ _ Hi)) as [[T1 T2] _]. rewrite Ep in T2.
    destruct (bucket_of_bkt k) as [Eb Hb]. destruct (cf_bucket s ls G F I _ Hb) as [g Hg]. specialize (T2 g Hg). cbn [tkey op_key] in T2.
    unfold ustep in Hst. rewrite Ep in Hst. cbn [op_key] in Hst. rewrite Eb in Hst.
    destruct (c_pc t) eqn:Epc; cbn [knows_find] in T2; try contradiction; try (destruct c; try contradiction).
    - injection Hst as <- <-. eapply quiet_go; [exact I|exact Hi|exact Ep|exact Hg|rewrite Epc; reflexivity|try reflexivity|unfold lock_of; rewrite Epc; reflexivity|split; [left; reflexivity|discriminate]].
    - destruct (walk_occ s ls G F _ g k FUser i0 I Hg ltac:(discriminate) T2) as (o & Ho & Hw). rewrite Ho in Hst. injection Hst as <- <-.
      eapply quiet_go; [exact I|exact Hi|exact Ep|exact Hg|rewrite Epc; reflexivity|destruct o; reflexivity|unfold lock_of; rewrite Epc; destruct o; reflexivity|destruct o; exact Hw].
    - destruct (walk_val s ls G F _ g k FUser i0 I Hg T2) as (v & Hv & _ & _ & Hw). rewrite Hv in Hst. injection Hst as <- <-. destruct (keq (kf v) k).
      + eapply quiet_finish; [exact I|exact Hi|exact Ep|rewrite Epc; reflexivity|unfold lock_of; rewrite Epc; reflexivity|discriminate].
      + eapply quiet_go; [exact I|exact Hi|exact Ep|exact Hg|rewrite Epc; reflexivity|try reflexivity|unfold lock_of; rewrite Epc; reflexivity|exact (Hw eq_refl)].
    - destruct (walk_off s ls G F _ g k FUser i0 I Hg T2) as (o & Ho & Hz & Hw). rewrite Ho in Hst. injection Hst as <- <-. destruct (Z.eqb_spec o 0) as [H0|H0].
      + eapply quiet_finish; [exact I|exact Hi|exact Ep|rewrite Epc; reflexivity|unfold lock_of; rewrite Epc; reflexivity|discriminate].
      + eapply quiet_go; [exact I|exact Hi|exact Ep|exact Hg|rewrite Epc; reflexivity|try reflexivity|unfold lock_of; rewrite Epc; reflexivity|exact (Hw H0)].
    - destruct (walk_add s ls G F _ g k FUser i0 I Hg T2) as (o & j & Ho & Hj & Hw). rewrite Ho, Hj in Hst. injection Hst as <- <-.
      eapply quiet_go; [exact I|exact Hi|exact Ep|exact Hg|rewrite Epc; reflexivity|try reflexivity|unfold lock_of; rewrite Epc; reflexivity|exact Hw].
  Qed.

  Lemma end_off s ls G F b g i : cinv s ls G F -> G !! b = Some g -> i ∈ b :: gpos g ->
    exists o : Z, c_off s !! i = Some o /\ (o = 0 -> i = lend b (gpos g)) /\ (o <> 0 -> i <> lend b (gpos g) /\ exists j, next_entry i o = Some j /\ j ∈ b :: gpos g).
  Proof using All.
    intros I Hb Hi. destruct (cf_walk_off s ls G F I b g i Hb Hi) as (o & Ho & H1 & H2). exists o. split; [exact Ho|]. split; [apply H1|]. intros Hne.
    split; [intros H; apply Hne, H1, H|]. destruct (H2 Hne) as (j & es1 & w & es2 & Eg & _ & Ej). exists j. split; [apply next_entry_nat; exact Ej|].
    right. unfold gpos. rewrite Eg, fmap_app. apply elem_of_app. right. left.
  Qed.
  Ltac qgo I Hi Ep Hg Epc := eapply quiet_go; [exact I|exact Hi|exact Ep|exact Hg|rewrite Epc; reflexivity| | | ].
  Lemma step_insert s ls G F i t v rest s' t' : cinv s ls G F -> ls !! i = Some t -> c_prog t = CInsert v :: rest -> ustep kf hash keq bc E i s t = Some (s', t') -> cnext s ls G F i s' t'.
  Proof using All.
    intros I Hi Ep Hst. pose proof (ci_tl _ _ _ _ I t (elem_of_list_lookup_2 _ _ _ Hi)) as [[T1 T2] Htp]. rewrite Ep in T2.
    destruct (bucket_of_bkt (kf v)) as [Eb Hb]. destruct (cf_bucket s ls G F I _ Hb) as [g Hg]. specialize (T2 g Hg). cbn [tkey op_key] in T2.
    unfold ustep in Hst. rewrite Ep in Hst. cbn [op_key] in Hst. rewrite Eb in Hst.
    assert (Htb : tb t = bkt (kf v)) by (unfold tb; rewrite Ep; reflexivity).
    assert (Htb' : forall pc, tb (cgo t pc) = bkt (kf v)) by (intros pc; unfold tb; cbn [cgo c_prog]; rewrite Ep; reflexivity).
    assert (Hbn : (bkt (kf v) < n)%nat) by lia.
    set (b := bkt (kf v)) in *. set (k := kf v) in *.
    destruct (c_pc t) eqn:Epc; cbn [knows_ins] in T2; try contradiction.
    - (* UIdle *) injection Hst as <- <-. qgo I Hi Ep Hg Epc; [reflexivity|unfold lock_of; rewrite Epc; reflexivity|exact Logic.I].
    - (* UFullCheck *) injection Hst as <- <-. destruct (c_count s =? _).
      + eapply quiet_finish; [exact I|exact Hi|exact Ep|rewrite Epc; reflexivity|unfold lock_of; rewrite Epc; reflexivity|discriminate].
      + qgo I Hi Ep Hg Epc; [reflexivity|unfold lock_of; rewrite Epc; reflexivity|exact Logic.I].
    - (* UEmptyCheck *) injection Hst as <- <-. destruct (clamp_size _ _ =? _).
      + eapply quiet_finish; [exact I|exact Hi|exact Ep|rewrite Epc; reflexivity|unfold lock_of; rewrite Epc; reflexivity|discriminate].
      + qgo I Hi Ep Hg Epc; [reflexivity|unfold lock_of; rewrite Epc; reflexivity|]. cbn. split; [exact Logic.I|]. split; [left; reflexivity|discriminate].
    - (* FOcc *) destruct T2 as [Tc Tw]. destruct (walk_occ s ls G F _ g k c i0 I Hg) as (o & Ho & Hw); [destruct c; cbn [isL ctxok] in *; try discriminate; tauto|exact Tw|].
      rewrite Ho in Hst. injection Hst as <- <-.
      qgo I Hi Ep Hg Epc; [destruct o; reflexivity|unfold lock_of; rewrite Epc; destruct o, c; reflexivity|]. destruct o; (split; [exact Tc|exact Hw]).
    - (* FVal *) destruct T2 as [Tc Tw]. destruct (walk_val s ls G F _ g k c i0 I Hg Tw) as (w & Hv & _ & _ & Hw). rewrite Hv in Hst. injection Hst as <- <-. destruct (keq (kf w) k) eqn:Ek.
      + destruct c; cbn [ctxok] in Tc; try contradiction; cbn [after_find].
        * eapply quiet_finish; [exact I|exact Hi|exact Ep|rewrite Epc; reflexivity|unfold lock_of; rewrite Epc; reflexivity|discriminate].
        * qgo I Hi Ep Hg Epc; [reflexivity|unfold lock_of; rewrite Epc; reflexivity|exact Logic.I].
        * qgo I Hi Ep Hg Epc; [reflexivity|unfold lock_of; rewrite Epc; reflexivity|]. cbn [knows_op knows_ins]. tauto.
      + qgo I Hi Ep Hg Epc; [reflexivity|unfold lock_of; rewrite Epc; destruct c; reflexivity|]. split; [exact Tc|exact (Hw eq_refl)].
    - (* FOff *) destruct T2 as [Tc Tw]. destruct (walk_off s ls G F _ g k c i0 I Hg Tw) as (o & Ho & Hz & Hw). rewrite Ho in Hst. injection Hst as <- <-. destruct (Z.eqb_spec o 0) as [H0|H0].
      + destruct (Hz H0) as [Hnm _]. destruct c; cbn [ctxok] in Tc; try contradiction; cbn [after_find].
        * qgo I Hi Ep Hg Epc; [reflexivity|unfold lock_of; rewrite Epc; reflexivity|exact Logic.I].
        * qgo I Hi Ep Hg Epc; [reflexivity|unfold lock_of; rewrite Epc; reflexivity|]. cbn [knows_op knows_ins]. auto.
        * destruct Tc as (Hg1 & Hen & Hchk). destruct Tw as [_ Hhd]. specialize (Hhd eq_refl). case_bool_decide as He.
          -- apply cnext_same; [|reflexivity|reflexivity]. eapply step_enter_pop; [exact I|exact Hi|exact Ep|exact Hg|rewrite Epc; reflexivity|unfold lock_of; rewrite Epc; reflexivity|]. split; [exact Hhd|]. split; [exact Hnm|]. auto.
          -- qgo I Hi Ep Hg Epc; [reflexivity|unfold lock_of; rewrite Epc; reflexivity|]. exact Hen.
      + qgo I Hi Ep Hg Epc; [reflexivity|unfold lock_of; rewrite Epc; destruct c; reflexivity|]. split; [exact Tc|exact (Hw H0)].
    - (* FAdd *) destruct T2 as [Tc Tw]. destruct (walk_add s ls G F _ g k c i0 I Hg Tw) as (o & j & Ho & Hj & Hw). rewrite Ho, Hj in Hst. injection Hst as <- <-.
      qgo I Hi Ep Hg Epc; [reflexivity|unfold lock_of; rewrite Epc; destruct c; reflexivity|]. split; [exact Tc|exact Hw].
    - (* EOff *) destruct T2 as (Hg1 & Hn & Hc). destruct (end_off s ls G F b g i0 I Hg Hn) as (o & Ho & Hz & Hnz). rewrite Ho in Hst. injection Hst as <- <-. destruct (Z.eqb_spec o 0) as [H0|H0].
      + destruct c as [|e0]; cbn [after_end].
        * qgo I Hi Ep Hg Epc; [reflexivity|unfold lock_of; rewrite Epc; reflexivity|]. cbn. auto.
        * qgo I Hi Ep Hg Epc; [reflexivity|unfold lock_of; rewrite Epc; reflexivity|]. cbn. split; [split; [exact Hg1|]; split; [exact (Hc e0 eq_refl)|]; intros <-; exact (Hz H0)|]. split; [left; reflexivity|]. intros _. left. reflexivity.
      + destruct (Hnz H0) as [Hne _]. qgo I Hi Ep Hg Epc; [reflexivity|unfold lock_of; rewrite Epc; destruct c; reflexivity|]. cbn. auto.
    - (* EAdd *) destruct T2 as (Hg1 & Hn & Hc & Hne). destruct (end_off s ls G F b g i0 I Hg Hn) as (o & Ho & Hz & Hnz). rewrite Ho in Hst.
      destruct (decide (o = 0)) as [H0|H0]; [exfalso; apply Hne; auto|]. destruct (Hnz H0) as (_ & j & Hj & Hjn). rewrite Hj in Hst. injection Hst as <- <-.
      qgo I Hi Ep Hg Epc; [reflexivity|unfold lock_of; rewrite Epc; destruct c; reflexivity|]. cbn. auto.
    - (* IOcc *) destruct (ci_head _ _ _ _ I b g Hg) as [Ho _]. rewrite Ho in Hst. injection Hst as <- <-.
      qgo I Hi Ep Hg Epc; [destruct g.1; reflexivity|unfold lock_of; rewrite Epc; destruct g.1; reflexivity|]. destruct g.1 eqn:E1; cbn; [|exact Logic.I]. rewrite E1. split; [discriminate|]. split; [left|discriminate].
    - (* ILockB *) destruct (c_locks s !! b) as [[|]|] eqn:El; [| |discriminate]; injection Hst as <- <-.
      + qgo I Hi Ep Hg Epc; [reflexivity|unfold lock_of; rewrite Epc; reflexivity|exact Logic.I].
      + eapply quiet_lock; [exact I|exact Hi|exact Ep|exact Hg|rewrite Epc; reflexivity|reflexivity|exact Hbn|exact El|unfold lock_of; rewrite Epc; reflexivity|unfold lock_of; cbn [cgo c_pc]; rewrite Htb'; reflexivity|].
        cbn. split; [exact Logic.I|]. split; [left; reflexivity|discriminate].
    - (* IOccB *) destruct (ci_head _ _ _ _ I b g Hg) as [Ho _]. rewrite Ho in Hst. injection Hst as <- <-.
      qgo I Hi Ep Hg Epc; [destruct g.1; reflexivity|unfold lock_of; rewrite Epc; destruct g.1; cbn [cgo c_pc is_some]; rewrite Htb, Htb'; reflexivity|]. destruct g.1 eqn:E1; cbn; [exact Logic.I|]. auto.
    - (* IConB *) destruct (c_values s !! b); [|discriminate]. injection Hst as <- <-. destruct T2 as [H1 H2]. pose proof (step_con_head s ls G F i t v rest g I Hi Ep Hg Epc H1 H2) as J.
      exists G, F. split; [exact J|]. split; [apply gext_refl|]. intros p w [S1 S2]. split; [|exact S2]. cbn [put_value c_values]. rewrite list_lookup_insert_ne; [exact S1|]. intros <-.
      destruct (ci_head _ _ _ _ I _ g Hg) as [Ho _]. rewrite H1 in Ho. cbn in Ho. congruence.
    - (* ICntB *) injection Hst as <- <-. apply cnext_same; [|reflexivity|reflexivity]. eapply step_cnt; eauto.
    - (* ISetB *) destruct (c_occ s !! b) eqn:Eo; [|discriminate]. injection Hst as <- <-. destruct T2 as [H1 H2]. unfold tp in Htp. rewrite Ep, Epc, Htb in Htp.
      pose proof (step_set_head s ls G F i t v rest g I Hi Ep Hg Epc H1 H2 Htp) as J. eexists _, _. split; [exact J|]. split.
      + eapply gext_insert; [exact Hg|congruence|]. exists []. rewrite app_nil_r. reflexivity.
      + intros p w [S1 S2]. split; [exact S1|]. cbn [put_occ c_occ]. destruct (decide (p = b)) as [-> |Hne]; [apply list_lookup_insert; eapply lookup_lt_Some; exact Eo|]. rewrite list_lookup_insert_ne by congruence. exact S2.
    - (* IUnlB *) destruct (c_locks s !! b) eqn:El; [|discriminate]. injection Hst as <- <-. assert (Hl : lock_of t = Some b) by (unfold lock_of; rewrite Epc, Htb; reflexivity). destruct r as [q|].
      + eapply leave_success; eauto.
      + eapply quiet_unlock; eauto. rewrite Epc. reflexivity.
    - (* ILockL *) destruct T2 as [Hg1 Hn]. pose proof (cf_node_range s ls G F I b g e Hg Hn) as Hr. destruct (c_locks s !! e) as [[|]|] eqn:El; [| |discriminate]; injection Hst as <- <-.
      + qgo I Hi Ep Hg Epc; [reflexivity|unfold lock_of; rewrite Epc; reflexivity|exact Logic.I].
      + eapply quiet_lock; [exact I|exact Hi|exact Ep|exact Hg|rewrite Epc; reflexivity|reflexivity|exact Hr|exact El|unfold lock_of; rewrite Epc; reflexivity|reflexivity|].
        cbn. split; [exact Hg1|]. split; [left|]. intros e1 [= <-]. exact Hn.
    - (* IPop *) destruct T2 as (Hrd & Eq & Elog). destruct (qstep (vctl E) i (c_ex s) q) as [[y q']|] eqn:Eqs; [|discriminate].
      destruct (step_pop s ls G F i t v rest g e q y q' I Hi Ep Hg Epc Hrd Eq Elog Eqs) as [(P1 & P2 & J)|[(P1 & P2 & J)|(p & F' & P1 & P2 & P3 & J)]]; rewrite P1 in Hst.
      + injection Hst as <- <-. apply cnext_same; [exact J|reflexivity|reflexivity].
      + destruct (last (q_log q')) as [[]|]; try (exfalso; eapply P2; reflexivity); injection Hst as <- <-; (apply cnext_same; [exact J|reflexivity|reflexivity]).
      + rewrite P2 in Hst. rewrite (proj2 (Z.leb_le 0 (Z.of_nat p))) in Hst by lia. rewrite Nat2Z.id in Hst. injection Hst as <- <-. exists G, F'. split; [exact J|]. split; [apply gext_refl|]. intros x w Hx. exact Hx.
    - (* IConL *) destruct (c_values s !! p) eqn:Ev; [|discriminate]. injection Hst as <- <-. unfold tp in Htp. rewrite Ep, Epc in Htp.
      eexists G, F. split; [|split; [apply gext_refl|]].
      + eapply (step_fill s ls G F i t v rest g e p); [exact I|exact Hi|exact Ep|exact Hg|exact T2|unfold lock_of; rewrite Epc; reflexivity|unfold hand; rewrite Epc; reflexivity|left; auto].
      + intros x w [S1 S2]. split; [|exact S2]. cbn [put_value c_values]. rewrite list_lookup_insert_ne; [exact S1|]. intros <-. congruence.
    - (* IOffL *) destruct (c_off s !! p) eqn:Ev; [|discriminate]. injection Hst as <- <-. apply cnext_same; [|reflexivity|reflexivity].
      eapply (step_fill s ls G F i t v rest g e p); [exact I|exact Hi|exact Ep|exact Hg|exact T2|unfold lock_of; rewrite Epc; reflexivity|unfold hand; rewrite Epc; reflexivity|right; left; auto].
    - (* ICntL *) injection Hst as <- <-. apply cnext_same; [|reflexivity|reflexivity]. eapply step_cnt; eauto 6.
    - (* ISetL *) destruct (c_occ s !! p) eqn:Eo; [|discriminate]. injection Hst as <- <-. eexists G, F. split; [|split; [apply gext_refl|]].
      + eapply (step_fill s ls G F i t v rest g e p); [exact I|exact Hi|exact Ep|exact Hg|exact T2|unfold lock_of; rewrite Epc; reflexivity|unfold hand; rewrite Epc; reflexivity|right; right; auto].
      + intros x w [S1 S2]. split; [exact S1|]. cbn [put_occ c_occ]. destruct (decide (x = p)) as [-> |Hne]; [apply list_lookup_insert; eapply lookup_lt_Some; exact Eo|]. rewrite list_lookup_insert_ne by congruence. exact S2.
    - (* ILinkL *) destruct (c_off s !! e) eqn:Ev; [|discriminate]. injection Hst as <- <-. eexists _, _. split; [|split].
      + eapply step_link; eauto.
      + eapply gext_insert; [exact Hg|auto|]. exists [(p, v)]. reflexivity.
      + intros x w Hx. exact Hx.
    - (* IUnlL *) pose proof (cf_node_range s ls G F I b g e Hg T2) as Hr. destruct (c_locks s !! e) eqn:El; [|discriminate]. injection Hst as <- <-.
      assert (Hl : lock_of t = Some e) by (unfold lock_of; rewrite Epc; reflexivity). destruct r as [q|].
      + eapply leave_success; eauto.
      + eapply quiet_unlock; eauto. rewrite Epc. reflexivity.
  Qed.
  Lemma ustep_inv s ls G F i t s' t' : cinv s ls G F -> ls !! i = Some t -> ustep kf hash keq bc E i s t = Some (s', t') -> cnext s ls G F i s' t'.
  Proof using All.
    intros I Hi Hst. destruct (c_prog t) as [|[v|k|k] rest] eqn:Ep.
    - unfold ustep in Hst. rewrite Ep in Hst. discriminate.
    - eapply step_insert; eauto.
    - exfalso. pose proof (ci_tl _ _ _ _ I t (elem_of_list_lookup_2 _ _ _ Hi)) as [[T1 _] _]. apply (T1 (CErase k)). rewrite Ep. left.
    - eapply step_find; eauto.
  Qed.
End cinv.
