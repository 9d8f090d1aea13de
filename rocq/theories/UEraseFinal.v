(** Concurrent erases and lookups on the unordered containers: presence of keys, results of calls, start and end of a kernel. *)
From Verif Require Import Base Conc SlotModel SlotSpec SlotProofs VectorModel VectorProofs VectorConcProofs HashProofs UnorderedModel UnorderedSpec UnorderedProofs UConcModel UConcSpec UConcProofs UConcReach UConcFinal UConcEnd UEraseModel UEraseSpec UEraseProofs.

Lemma imap_bind_filter {V} (Gn : list nat) (f : nat -> option V * list (nat * V) -> option V * list (nat * V)) G :
  (forall b g, gpos (f b g) = filter (fun x => x ∉ Gn) (gpos g)) -> imap f G ≫= gpos = filter (fun x => x ∉ Gn) (G ≫= gpos).
Proof.
  revert f. induction G as [|g G IH]; intros f Hf; [reflexivity|].
  change (gpos (f 0%nat g) ++ (imap (fun b => f (S b)) G ≫= gpos) = filter (fun x => x ∉ Gn) (gpos g ++ (G ≫= gpos))).
  rewrite filter_app, Hf. f_equal. apply (IH (fun b => f (S b))). intros b g'. apply Hf.
Qed.
Lemma bcount_sum (l : list bool) : bcount l = sumZ Z.b2z l.
Proof. unfold bcount. induction l as [|b l IH]; [reflexivity|]. rewrite filter_cons. cbn [sumZ]. destruct b; [rewrite decide_True by reflexivity; cbn [length Z.b2z]; lia|rewrite decide_False by discriminate; cbn [Z.b2z]; lia]. Qed.

Section efinal.
  Context {K V : Type} (kf : V -> K) (hash : K -> Z) (keq : K -> K -> bool) (bc E : nat).
  Hypothesis keq_refl : forall a, keq a a = true.
  Hypothesis keq_sym : forall a b, keq a b = true -> keq b a = true.
  Hypothesis keq_trans : forall a b c, keq a b = true -> keq b c = true -> keq a c = true.
  Hypothesis Hhash : forall a b, keq a b = true -> hash a = hash b.
  Hypothesis Hbc : (0 < bc)%nat.
  Hypothesis HE : (0 < E)%nat.
  Hypothesis Hmax : Z.of_nat (bc + E) <= INT_MAX.
  Notation n := (bc + E)%nat.
  Notation bkt := (bkt hash bc).
  Implicit Types (s : cshared V) (t : cthread K V) (ls : list (cthread K V)) (F Gn : list nat).
  Context (M0 : list V) (s0 : cshared V) (G0 : list (option V * list (nat * V))) (F0 : list nat).
  Hypothesis I0 : cinv (K:=K) kf hash keq bc E M0 s0 [] G0 F0.
  Notation A f := (f kf hash keq bc E keq_refl keq_sym keq_trans Hhash Hbc HE Hmax M0 s0 G0 F0 I0).
  Notation einv := (einv kf hash keq bc E s0 G0 F0).
  Notation nodes := (nodes G0).
  Notation st0 := (st0 s0).
  Notation hit := (hit kf keq s0).
  Notation nxt := (leads_to (V:=V)).
  Notation step := (estep kf hash keq bc E).
  Notation present_at := (present_at kf hash keq bc).
  Notation present := (present kf hash keq bc).
  Notation evo := (evo kf hash keq bc s0 G0).

  Lemma bucket_bkt k : bucket_of hash bc k = Some (bkt k).
  Proof using All. apply (bucket_of_bkt hash keq bc E keq_refl keq_sym keq_trans Hhash Hbc HE Hmax). Qed.
  Lemma lk_true (l : list bool) p : lk l p = true <-> l !! p = Some true.
  Proof. unfold lk. destruct (l !! p) as [[]|]; cbn; split; congruence. Qed.
  Lemma present_iff s ls Gn F k p : einv s ls Gn F -> present_at s k p <-> p ∈ nodes (bkt k) /\ p ∉ Gn /\ hit s k p.
  Proof using All.
    intros I. pose proof (A bkt_range k) as Hb. split.
    - intros (b & v & E1 & R & [Hv Ho] & Hk). rewrite bucket_bkt in E1. injection E1 as <-. split; [|split].
      + destruct (A ef_rtc s ls Gn F I (bkt k) 0%nat (bkt k) p Hb (nodes_head G0 _) R) as (a & _ & Ha). eapply elem_of_list_lookup_2; exact Ha.
      + exact (ei_live _ _ _ _ _ _ _ _ _ _ _ _ I _ _ Hb R).
      + apply lk_true in Ho. split; [exact Ho|]. destruct (ei_occ _ _ _ _ _ _ _ _ _ _ _ _ I p Ho) as [v' Hv']. exists v'. split; [exact Hv'|].
        destruct Hv' as [Hv' _]. rewrite (ei_val _ _ _ _ _ _ _ _ _ _ _ _ I) in Hv. assert (v' = v) as -> by congruence. exact Hk.
    - intros (H1 & H2 & H3 & v & Hv & Hk). exists (bkt k), v. split; [apply bucket_bkt|]. split; [exact (A ef_reach_head s ls Gn F I _ _ Hb H1 H2)|]. split; [|exact Hk].
      split; [rewrite (ei_val _ _ _ _ _ _ _ _ _ _ _ _ I); apply Hv|apply lk_true; exact H3].
  Qed.
  Lemma present_one s ls Gn F k p q : einv s ls Gn F -> present_at s k p -> present_at s k q -> p = q.
  Proof using All.
    intros I Hp Hq. apply (present_iff s ls Gn F k p I) in Hp as (_ & _ & _ & v & Hv & Hk). apply (present_iff s ls Gn F k q I) in Hq as (_ & _ & _ & w & Hw & Hk').
    eapply (A st0_inj); [exact Hv|exact Hw|]. eapply keq_trans; [exact Hk|]. apply keq_sym. exact Hk'.
  Qed.
  Lemma evo_mono s Gn s' Gn' t : evo s Gn s' Gn' t -> (forall x, lk (c_occ s') x = true -> lk (c_occ s) x = true) /\ (forall x, x ∈ Gn -> x ∈ Gn') /\ (forall x y, nxt s' x y -> rtc (nxt s) x y).
  Proof.
    intros [(-> & Eo & Ef)|(p & k & rest & _ & _ & _ & _ & Hg & _ & Ho & Hn)].
    - unfold leads_to. rewrite Eo, Ef. split; [auto|]. split; [auto|]. intros x y H. apply rtc_once. exact H.
    - split; [exact Ho|]. split; [|exact Hn]. intros x Hx. destruct Hg as [-> | ->]; [exact Hx|right; exact Hx].
  Qed.
  Lemma rtc_sub s s' x y : (forall x y, nxt s' x y -> rtc (nxt s) x y) -> rtc (nxt s') x y -> rtc (nxt s) x y.
  Proof. intros H R. induction R as [x|x y z H1 _ IH]; [apply rtc_refl|]. etransitivity; [apply H; exact H1|exact IH]. Qed.
  Definition later s Gn s' Gn' : Prop := (forall x, lk (c_occ s') x = true -> lk (c_occ s) x = true) /\ (forall x, x ∈ Gn -> x ∈ Gn') /\ (forall x y, rtc (nxt s') x y -> rtc (nxt s) x y).
  Lemma later_refl s Gn : later s Gn s Gn.
  Proof. unfold later. auto. Qed.
  Lemma later_trans s1 G1 s2 G2 s3 G3 : later s1 G1 s2 G2 -> later s2 G2 s3 G3 -> later s1 G1 s3 G3.
  Proof. intros (A1 & A2 & A3) (B1 & B2 & B3). split; [auto|]. split; auto. Qed.
  Lemma evo_later s Gn s' Gn' t : evo s Gn s' Gn' t -> later s Gn s' Gn'.
  Proof. intros H. destruct (evo_mono _ _ _ _ _ H) as (H1 & H2 & H3). split; [exact H1|]. split; [exact H2|]. intros x y. apply rtc_sub. exact H3. Qed.
  Lemma reach_einv s ls Gn F s' ls' : einv s ls Gn F -> Conc.reach step (s, ls) (s', ls') -> exists Gn' F', einv s' ls' Gn' F' /\ later s Gn s' Gn'.
  Proof using All.
    intros I R. remember (s, ls) as c eqn:Ec. remember (s', ls') as c' eqn:Ec'. revert s ls Gn F I Ec. induction R as [c|c [s1 ls1] c2 Hs R IH]; intros s ls Gn F I ->.
    - injection Ec' as -> ->. exists Gn, F. split; [exact I|apply later_refl].
    - inversion Hs as [a ls0 i t s2 t2 Hi Hst]; subst. destruct (A estep_inv s ls Gn F i t s1 t2 I Hi Hst) as (Gn1 & F1 & I1 & E1).
      destruct (IH eq_refl s1 _ Gn1 F1 I1 eq_refl) as (Gn2 & F2 & I2 & L2). exists Gn2, F2. split; [exact I2|]. eapply later_trans; [eapply evo_later; exact E1|exact L2].
  Qed.
  Lemma present_later s ls Gn F s' ls' Gn' F' k p : einv s ls Gn F -> einv s' ls' Gn' F' -> later s Gn s' Gn' -> present_at s' k p -> present_at s k p.
  Proof using All.
    intros I I' (L1 & L2 & L3) H. apply (present_iff s' ls' Gn' F' k p I') in H as (H1 & H2 & H3 & H4). apply (present_iff s ls Gn F k p I). split; [exact H1|]. split; [auto|]. split; auto.
  Qed.
  (** presence of a key ends in a step of an erase of an equal key only *)
  Lemma present_step s ls Gn F i t s' t' k p : einv s ls Gn F -> ls !! i = Some t -> step i s t = Some (s', t') -> present_at s k p ->
    present_at s' k p \/ exists k' rest, c_prog t = CErase k' :: rest /\ keq k' k = true.
  Proof using All.
    intros I Hi Hst Hp. destruct (A estep_inv s ls Gn F i t s' t' I Hi Hst) as (Gn' & F' & I' & Ev).
    apply (present_iff s ls Gn F k p I) in Hp as (H1 & H2 & H3 & v & Hv & Hk).
    destruct Ev as [(-> & Eo & Ef)|(q & k' & rest & Ep & (_ & w & Hw & Hkw) & _ & _ & Hg & Ho & _)].
    - left. apply (present_iff s' _ Gn F' k p I'). split; [exact H1|]. split; [exact H2|]. split; [rewrite Eo; exact H3|eauto].
    - destruct (decide (p = q)) as [-> |Hne].
      + right. exists k', rest. split; [exact Ep|]. rewrite (st0_fun s0 q w v Hw Hv) in Hkw. eapply keq_trans; [apply keq_sym; exact Hkw|exact Hk].
      + left. apply (present_iff s' _ Gn' F' k p I'). split; [exact H1|]. split; [|split; [rewrite Ho by exact Hne; exact H3|eauto]].
        destruct Hg as [-> | ->]; [exact H2|]. intros [Hc|Hc]%elem_of_cons; contradiction.
  Qed.
  (** *** results that say that the key is not there *)
  Definition gone_log (s : cshared V) (x : cop K V * cret) : Prop := match x with (CFind k, RFound None) | (CErase k, RErased false) => ~ present s k | _ => True end.
  Lemma lsucc_in k k' (l : list (cop K V * cret)) : (CErase k', RErased true) ∈ l -> keq k' k = true -> 1 <= lsucc keq k l.
  Proof.
    intros H Hk. unfold lsucc. induction l as [|x l IH]; [inversion H|]. cbn [sumZ].
    assert (H0 : 0 <= sumZ (fun x : cop K V * cret => match x with (CErase k', RErased true) => if keq k' k then 1 else 0 | _ => 0 end) l).
    { apply sumZ_nonneg. intros [[] [| |[]|]] _; try lia. destruct (keq k0 k); lia. }
    apply elem_of_cons in H as [<-|H]; [rewrite Hk; lia|]. specialize (IH H). destruct x as [[] [| |[]|]]; try lia. destruct (keq k0 k); lia.
  Qed.
  Lemma lsucc_nonneg k (l : list (cop K V * cret)) : 0 <= lsucc keq k l.
  Proof. apply sumZ_nonneg. intros [[] [| |[]|]] _; try lia. destruct (keq k0 k); lia. Qed.
  Lemma succ_nonneg k t : 0 <= succ keq k t.
  Proof. unfold succ, rsucc. pose proof (lsucc_nonneg k (c_log t)). destruct (c_prog t) as [|[] ?]; try lia. destruct (keq k0 k && past (c_pc t)); lia. Qed.
  Lemma erased_gone s ls Gn F t k : einv s ls Gn F -> t ∈ ls -> (CErase k, RErased true) ∈ c_log t -> ~ present s k.
  Proof using All.
    intros I Ht Hl [p Hp]. apply (present_iff s ls Gn F k p I) in Hp as (_ & _ & Ho & v & Hv & Hk).
    pose proof (ei_succ _ _ _ _ _ _ _ _ _ _ _ _ I p v Hv) as H. rewrite Ho in H. apply elem_of_list_lookup in Ht as [i Hi].
    pose proof (sumZ_ge_elem (succ keq (kf v)) ls i t (fun l _ => succ_nonneg (kf v) l) Hi) as H1. pose proof (lsucc_in (kf v) k _ Hl (keq_sym _ _ Hk)) as H2.
    assert (H3 : lsucc keq (kf v) (c_log t) <= succ keq (kf v) t) by (unfold succ, rsucc; destruct (c_prog t) as [|[] ?]; try lia; destruct (keq k0 (kf v) && past (c_pc t)); lia).
    cbn in H. lia.
  Qed.
  (** a find() that reaches the end of the list *)
  Lemma end_gone s ls Gn F i t op rest c x : einv s ls Gn F -> ls !! i = Some t -> c_prog t = op :: rest -> c_pc t = FOff c x -> c_off s !! x = Some 0 -> ~ present s (op_key kf op).
  Proof using All.
    intros I Hi Ep Epc Eo [p Hp]. destruct (ei_tk _ _ _ _ _ _ _ _ _ _ _ _ I t (elem_of_list_lookup_2 _ _ _ Hi)) as [_ T]. rewrite Ep, Epc in T. cbn [kn] in T. destruct T as (_ & a & Ha & Hcl).
    set (k := op_key kf op) in *. pose proof (A bkt_range k) as Hb. apply (present_iff s ls Gn F k p I) in Hp as (H1 & H2 & H3 & v & Hv & Hk). apply elem_of_list_lookup in H1 as [a' Ha'].
    destruct (decide (a' < S a)%nat) as [Hd|Hd].
    - destruct (Hcl a' p Hd Ha') as [H|[H|H]]; [contradiction|congruence|rewrite (H v Hv) in Hk; discriminate].
    - destruct (ei_next _ _ _ _ _ _ _ _ _ _ _ _ I (bkt k) a x Hb Ha) as (o & Eo' & Hc). rewrite Eo in Eo'. injection Eo' as <-.
      destruct Hc as [[_ Hc]|(a1 & j & H4 & H5 & H6 & _)]; [apply H2, (Hc a' p); [lia|exact Ha']|].
      assert (j = x) as -> by lia. pose proof (A ef_idx s ls Gn F I (bkt k) a a1 x Hb Ha H5). lia.
  Qed.
  (** what one step adds to the log *)
  Lemma step_log s ls Gn F i t s' t' : einv s ls Gn F -> ls !! i = Some t -> step i s t = Some (s', t') ->
    c_log t' = c_log t \/ exists op rest r, c_prog t = op :: rest /\ c_prog t' = rest /\ c_pc t' = UIdle /\ c_log t' = c_log t ++ [(op, r)] /\ gone_log s (op, r).
  Proof using All.
    intros I Hi Hst. destruct (ei_tk _ _ _ _ _ _ _ _ _ _ _ _ I t (elem_of_list_lookup_2 _ _ _ Hi)) as [T T2]. destruct (c_prog t) as [|op rest] eqn:Ep.
    { unfold estep in Hst. rewrite T2 in Hst. unfold ustep in Hst. rewrite Ep in Hst. discriminate. }
    assert (He : ecall_ok op) by (apply T; left).
    assert (Hfin : forall r, gone_log s (op, r) -> c_log (cfinish t op r) = c_log t \/ exists op' rest' r', op :: rest = op' :: rest' /\ c_prog (cfinish t op r) = rest' /\ c_pc (cfinish t op r) = UIdle /\ c_log (cfinish t op r) = c_log t ++ [(op', r')] /\ gone_log s (op', r')).
    { intros r H. right. exists op, rest, r. cbn [cfinish c_prog c_pc c_log]. rewrite Ep. auto. }
    assert (Hgo : forall pc, c_log (cgo t pc) = c_log t) by reflexivity.
    pose proof (end_gone s ls Gn F i t op rest) as Hend.
    unfold estep in Hst. destruct (c_pc t) as [| | |c x|c x|c x|c x|c x|c x|c x prev|c x prev| | | | | | |r|e|e q|e p|e p|e p|e p|e p|e r|p|p|p|p|p ok|p q|p q|p|p q|p q|p q o|p q o|p q|p q|p q|p q y|p q ok|q ok] eqn:Epc;
      cbn [kn] in T2; try contradiction; unfold ustep in Hst; try rewrite Ep in Hst; rewrite ?bucket_bkt in Hst; try rewrite Epc in Hst.
    all: repeat case_match; try discriminate; try contradiction; injection Hst as <- <-; auto.
    all: unfold after_find, after_prev, again.
    all: try (destruct c; auto; destruct (_ && _); auto; fail); try (destruct (_ && _); auto; fail); try (destruct op; [contradiction|auto..]; fail).
    - destruct c; destruct T2 as [C _]; cbn [ctx] in C; try contradiction; try (case_bool_decide; auto; fail); auto.
      + apply Hfin. destruct op; [contradiction|discriminate C|exact Logic.I].
    - apply Z.eqb_eq in H0. subst z. pose proof (Hend c x I Hi Ep eq_refl H) as Hg. destruct c; destruct T2 as [C _]; cbn [ctx] in C; try contradiction; try (case_bool_decide; auto; fail); auto.
      + apply Hfin. destruct op; [contradiction|discriminate C|exact Hg].
      + apply Hfin. destruct op; [contradiction|exact Hg|discriminate C].
  Qed.
  (** the results seen so far *)
  Lemma reach_gone s ls Gn F s' ls' : einv s ls Gn F -> (forall t x, t ∈ ls -> x ∈ c_log t -> gone_log s x) -> Conc.reach step (s, ls) (s', ls') -> forall t x, t ∈ ls' -> x ∈ c_log t -> gone_log s' x.
  Proof using All.
    intros I H R. remember (s, ls) as c eqn:Ec. remember (s', ls') as c' eqn:Ec'. revert s ls Gn F I H Ec. induction R as [c|c [s1 ls1] c2 Hs R IH]; intros s ls Gn F I H ->.
    - injection Ec' as -> ->. exact H.
    - inversion Hs as [a ls0 i t s2 t2 Hi Hst]; subst. destruct (A estep_inv s ls Gn F i t s1 t2 I Hi Hst) as (Gn1 & F1 & I1 & E1).
      apply (IH eq_refl s1 _ Gn1 F1 I1); [|reflexivity].
      assert (Hm : forall k, ~ present s k -> ~ present s1 k) by (intros k Hn [p Hp]; apply Hn; exists p; exact (present_later _ _ _ _ _ _ _ _ k p I I1 (evo_later _ _ _ _ _ E1) Hp)).
      assert (Hg : forall x, gone_log s x -> gone_log s1 x) by (intros [[v|k|k] [q| |[|]|[q|]]]; cbn; auto).
      intros t' x Ht Hx. apply elem_of_list_lookup in Ht as [j Hj]. apply list_lookup_insert_Some in Hj as [(_ & <- & _)|[_ Hj]]; [|eauto using elem_of_list_lookup_2].
      apply Hg. pose proof (elem_of_list_lookup_2 _ _ _ Hi) as Hin. destruct (step_log s ls Gn F i t s1 t2 I Hi Hst) as [El|(op & rest & r & _ & _ & _ & El & Hr)]; rewrite El in Hx; [eauto|].
      apply elem_of_app in Hx as [Hx|Hx]; [eauto|]. apply elem_of_list_singleton in Hx as ->. exact Hr.
  Qed.
  (** *** what a call that found the key says about the state in which it started *)
  Section call.
    Context (s1 : cshared V) (ls1 : list (cthread K V)) (Gn1 F1 : list nat) (I1 : einv s1 ls1 Gn1 F1) (i : nat).
    Definition seen (op : cop K V) (pc : upc) : Prop :=
      match op with
      | CFind k =>
        match pc with
        | UIdle => True
        | FOcc FUser x | FOff FUser x | FAdd FUser x => rtc (nxt s1) (bkt k) x
        | FVal FUser x => rtc (nxt s1) (bkt k) x /\ lk (c_occ s1) x = true
        | _ => False
        end
      | CErase k => past pc = true \/ (exists p q, pc = XReset p q) -> present s1 k
      | _ => False
      end.
    Definition told (op : cop K V) (r : cret) : Prop :=
      match op, r with CFind k, RFound (Some p) => present_at s1 k p | CErase k, RErased true => present s1 k | _, _ => True end.
    Definition moved (op : cop K V) (t t' : cthread K V) : Prop := (exists pc', t' = cgo t pc' /\ seen op pc') \/ exists r, t' = cfinish t op r /\ told op r.
    Lemma own_erase k rest s ls Gn F t s' t' : einv s ls Gn F -> later s1 Gn1 s Gn -> ls !! i = Some t -> c_prog t = CErase k :: rest -> seen (CErase k) (c_pc t) -> step i s t = Some (s', t') ->
      moved (CErase k) t t'.
    Proof using All.
      intros I L Hi Ep Hsn Hst. cbn [seen] in Hsn.
      assert (Hhit : forall p, p ∈ nodes (bkt k) -> p ∉ Gn -> hit s k p -> present s1 k).
      { intros p H1 H2 H3. exists p. eapply (present_later _ _ _ _ _ _ _ _ k p I1 I L). apply (present_iff s ls Gn F k p I). auto. }
      pose proof (elem_of_list_lookup_2 _ _ _ Hi) as Hin.
      destruct (ei_tk _ _ _ _ _ _ _ _ _ _ _ _ I t Hin) as [T T2]. rewrite Ep in T2. cbn [is_er op_key] in T2. pose proof (A bkt_range k) as Hb.
      assert (Hgo : forall pc', seen (CErase k) pc' -> moved (CErase k) t (cgo t pc')) by (intros pc' Hx; left; eauto).
      assert (Hno : forall pc', past pc' = false -> (forall p q, pc' <> XReset p q) -> moved (CErase k) t (cgo t pc')).
      { intros pc' Hx1 Hx2. apply Hgo. intros [Hx|(p & q & Hx)]; [congruence|destruct (Hx2 _ _ Hx)]. }
      assert (Hpast : forall pc', past (c_pc t) = true -> moved (CErase k) t (cgo t pc')).
      { intros pc' Hx. apply Hgo. intros _. apply Hsn. left. exact Hx. }
      assert (Hlnk : forall p, p ∈ locks_of (c_pc t) -> (forall q, c_pc t <> XReset p q) -> hit s k p -> p ∉ Gn) by (intros p; exact (A ef_hit_linked s ls Gn F i t k p I Hi)).
      pose proof (A ef_head_live s ls Gn F I (bkt k) Hb) as Hhl.
      unfold estep in Hst. destruct (c_pc t) as [| | |c x|c x|c x|c x|c x|c x|c x prev|c x prev| | | | | | |r|e|e q|e p|e p|e p|e p|e p|e r|p|p|p|p|p ok|p q|p q|p|p q|p q|p q o|p q o|p q|p q|p q|p q y|p q ok|q ok] eqn:Epc;
        cbn [kn] in T2; try contradiction; unfold ustep in Hst; try rewrite Ep in Hst; cbn [op_key] in Hst; rewrite ?bucket_bkt in Hst; try rewrite Epc in Hst.
      all: repeat case_match; try discriminate; try contradiction; injection Hst as <- <-; unfold after_find, after_prev, again.
      all: try (apply Hno; [reflexivity|discriminate]; fail); try (apply Hpast; reflexivity; fail).
      all: try (destruct c; destruct T2 as [C _]; cbn [ctx] in C; try contradiction; try discriminate C; try (case_bool_decide; apply Hno; [reflexivity|discriminate|reflexivity|discriminate]; fail); try (right; eexists; split; [reflexivity|exact Logic.I]); apply Hno; [reflexivity|discriminate]; fail).
      all: try (destruct (_ && _); apply Hno; [reflexivity|discriminate|reflexivity|discriminate]; fail).
      - destruct c; destruct T2 as [C _]; cbn [ctx] in C; try contradiction; try discriminate C.
        + case_bool_decide; apply Hno; reflexivity || discriminate.
        + case_bool_decide; apply Hno; reflexivity || discriminate.
        + apply Hno; reflexivity || discriminate.
      - destruct c; destruct T2 as [C _]; cbn [ctx] in C; try contradiction; try discriminate C.
        + right; eexists; split; [reflexivity|exact Logic.I].
        + case_bool_decide; apply Hno; reflexivity || discriminate.
        + apply Hno; reflexivity || discriminate.
      - apply Hgo. intros _. destruct T2 as (_ & -> & Hh). apply (Hhit (bkt k)); [|exact Hhl|exact Hh]. eapply elem_of_list_lookup_2. apply nodes_head.
      - right. eexists. split; [reflexivity|]. apply Hsn. left. reflexivity.
      - apply Hgo. intros _. destruct T2 as ((B & Hh & _) & _). apply (Hhit p); [apply B|apply Hlnk; [left|discriminate|exact Hh]|exact Hh].
      - apply Hgo. intros _. apply Hsn. right. eauto.
      - apply Hgo. intros [Hx|(p' & q' & Hx)]; [|discriminate]. apply Hsn. left. destruct ok; [reflexivity|discriminate].
      - right. eexists. split; [reflexivity|]. apply Hsn. left. reflexivity.
    Qed.
    Lemma own_find k rest s ls Gn F t s' t' : einv s ls Gn F -> later s1 Gn1 s Gn -> ls !! i = Some t -> c_prog t = CFind k :: rest -> seen (CFind k) (c_pc t) -> step i s t = Some (s', t') ->
      moved (CFind k) t t'.
    Proof using All.
      intros I (L1 & L2 & L3) Hi Ep Hsn Hst. cbn [seen] in Hsn.
      pose proof (elem_of_list_lookup_2 _ _ _ Hi) as Hin.
      destruct (ei_tk _ _ _ _ _ _ _ _ _ _ _ _ I t Hin) as [T T2]. rewrite Ep in T2. cbn [is_er op_key] in T2. pose proof (A bkt_range k) as Hb.
      unfold estep in Hst. destruct (c_pc t) as [| | |c x|c x|c x|c x|c x|c x|c x prev|c x prev| | | | | | |r|e|e q|e p|e p|e p|e p|e p|e r|p|p|p|p|p ok|p q|p q|p|p q|p q|p q o|p q o|p q|p q|p q|p q y|p q ok|q ok] eqn:Epc;
        cbn [kn] in T2; try contradiction; try (destruct c; try contradiction); unfold ustep in Hst; try rewrite Ep in Hst; cbn [op_key] in Hst; rewrite ?bucket_bkt in Hst; try rewrite Epc in Hst.
      - injection Hst as <- <-. left. eexists. split; [reflexivity|]. apply rtc_refl.
      - destruct (c_occ s !! x) as [o|] eqn:Eo; [|discriminate]. injection Hst as <- <-. left. eexists. split; [reflexivity|]. destruct o; [|exact Hsn]. split; [exact Hsn|]. apply L1. unfold lk. rewrite Eo. reflexivity.
      - destruct (c_values s !! x) as [[v|]|] eqn:Ev; try discriminate. injection Hst as <- <-. destruct Hsn as [H1 H2]. destruct (keq (kf v) k) eqn:Ek; [|left; eexists; split; [reflexivity|exact H1]].
        right. eexists. split; [reflexivity|]. exists (bkt k), v. split; [apply bucket_bkt|]. split; [exact H1|]. split; [|exact Ek]. split; [|apply lk_true; exact H2].
        rewrite (ei_val _ _ _ _ _ _ _ _ _ _ _ _ I1), <- (ei_val _ _ _ _ _ _ _ _ _ _ _ _ I). exact Ev.
      - destruct (c_off s !! x) as [o|] eqn:Eo; [|discriminate]. injection Hst as <- <-. destruct (o =? 0); [right; eexists; split; [reflexivity|exact Logic.I]|left; eexists; split; [reflexivity|exact Hsn]].
      - destruct (c_off s !! x) as [o|] eqn:Eo; [|discriminate]. destruct (next_entry x o) as [j|] eqn:Ej; [|discriminate]. injection Hst as <- <-. left. eexists. split; [reflexivity|]. cbn [seen].
        destruct T2 as (_ & a & Ha & _). destruct (A ef_follow s ls Gn F (bkt k) a x o j I Hb Ha Eo Ej) as [[_ ->]|(_ & Hn & _)]; [exact Hsn|].
        etransitivity; [exact Hsn|]. apply L3. apply rtc_once. exact Hn.
    Qed.
    Definition following (t1 : cthread K V) (op : cop K V) (ls : list (cthread K V)) : Prop := exists t, ls !! i = Some t /\
      ((c_prog t = c_prog t1 /\ c_log t = c_log t1 /\ seen op (c_pc t)) \/ exists r more, c_log t = c_log t1 ++ (op, r) :: more /\ told op r).
    Lemma reach_following t1 op rest s ls : ls1 !! i = Some t1 -> c_prog t1 = op :: rest -> c_pc t1 = UIdle -> Conc.reach step (s1, ls1) (s, ls) -> following t1 op ls.
    Proof using All.
      intros Hi1 Ep1 Ec1 R.
      assert (Hop : ecall_ok op). { destruct (ei_tk _ _ _ _ _ _ _ _ _ _ _ _ I1 t1 (elem_of_list_lookup_2 _ _ _ Hi1)) as [T _]. apply T. rewrite Ep1. left. }
      assert (H0 : following t1 op ls1). { exists t1. split; [exact Hi1|]. left. split; [reflexivity|]. split; [reflexivity|]. rewrite Ec1. destruct op; [contradiction| |exact Logic.I]. cbn. intros [Hx|(p & q & Hx)]; discriminate. }
      assert (Hgen : forall c c', rtc (cstep step) c c' -> forall sa lsa Gn F, c = (sa, lsa) -> einv sa lsa Gn F -> later s1 Gn1 sa Gn -> following t1 op lsa -> following t1 op (snd c')).
      { clear R H0. intros c c' R. induction R as [c|c [s2 ls2] c2 Hs R IH]; intros sa lsa Gn F -> I L Hf; [exact Hf|].
        inversion Hs as [a ls0 j t s3 t3 Hj Hst]; subst. destruct (A estep_inv sa lsa Gn F j t s2 t3 I Hj Hst) as (Gn2 & F2 & I2 & Ev).
        apply (IH s2 _ Gn2 F2 eq_refl I2); [eapply later_trans; [exact L|eapply evo_later; exact Ev]|].
        destruct Hf as (u & Hu & Hf). destruct (decide (j = i)) as [-> |Hne].
        - rewrite Hj in Hu. injection Hu as <-. exists t3. split; [apply list_lookup_insert; eapply lookup_lt_Some; exact Hj|].
          destruct Hf as [(P1 & P2 & P3)|(r & more & P1 & P2)].
          + assert (Ep : c_prog t = op :: rest) by congruence.
            assert (M : moved op t t3). { destruct op as [v|k|k]; [contradiction| |]; [exact (own_erase k rest sa lsa Gn F t s2 t3 I L Hj Ep P3 Hst)|exact (own_find k rest sa lsa Gn F t s2 t3 I L Hj Ep P3 Hst)]. }
            destruct M as [(pc' & -> & M)|(r & -> & M)]; [left; cbn [cgo c_prog c_log c_pc]; auto|right]. exists r, []. cbn [cfinish c_log]. rewrite P2. auto.
          + right. destruct (step_log sa lsa Gn F i t s2 t3 I Hj Hst) as [El|(op' & rest' & r' & _ & _ & _ & El & _)]; rewrite El, P1; [eauto|]. exists r, (more ++ [(op', r')]). rewrite <- app_assoc. auto.
        - exists u. split; [rewrite list_lookup_insert_ne by exact Hne; exact Hu|exact Hf]. }
      apply (Hgen _ _ R s1 ls1 Gn1 F1 eq_refl I1 (later_refl _ _) H0).
    Qed.
  End call.
  (** *** the start *)
  Lemma linked_at off p P a i : linked off p P -> (p :: P) !! a = Some i -> (off !! i = Some 0 /\ a = length P) \/ exists j, (p :: P) !! S a = Some j /\ off !! i = Some (Z.of_nat j - Z.of_nat i).
  Proof.
    revert p a. induction P as [|q P IH]; intros p a HL Ha.
    - destruct a; [|destruct a; discriminate]. injection Ha as ->. left. auto.
    - destruct HL as (Hne & Ho & HL). destruct a as [|a].
      + injection Ha as ->. right. exists q. auto.
      + destruct (IH q a HL Ha) as [[H1 ->]|(j & H1 & H2)]; [left; auto|right]. exists j. auto.
  Qed.
  Lemma einv_start progs : erases_and_lookups progs -> c_count s0 = sumZ Z.b2z (c_occ s0) -> q_c (c_ex s0) = Z.of_nat (length F0) ->
    inv (T:=Z) (C:=Z) E vm (fun _ => True) (fun w => sumZ w (Z.of_nat <$> F0)) (c_ex s0) (eproj <$> c_start (K:=K) (V:=V) progs) ->
    einv s0 (c_start progs) [] F0.
  Proof using All.
    intros Hp Hcnt Hqc Hvec. set (ls := c_start progs) in *.
    assert (Hidle : forall t, t ∈ ls -> c_pc t = UIdle /\ c_log t = [] /\ c_prog t ∈ progs) by (intros t Ht; exact (c_start_in progs t Ht)).
    assert (Hpr : forall t, t ∈ ls -> eproj t = fresh_call []) by (intros t Ht; unfold eproj; rewrite (proj1 (Hidle t Ht)); reflexivity).
    split.
    - reflexivity.
    - apply (ci_lf _ _ _ _ _ _ _ _ _ _ I0).
    - apply (ci_lo _ _ _ _ _ _ _ _ _ _ I0).
    - apply (ci_ll _ _ _ _ _ _ _ _ _ _ I0).
    - intros x Hx. inversion Hx.
    - apply NoDup_nil_2.
    - unfold ls. rewrite idle_bind; [reflexivity|]. intros t Ht. unfold ehand. rewrite (proj1 (Hidle t Ht)). reflexivity.
    - intros p Hl. apply lk_true in Hl. destruct (occupied_where kf hash keq bc E keq_refl keq_sym keq_trans Hhash Hbc HE Hmax M0 s0 [] G0 F0 p I0 Hl) as (v & Hv & _). eauto.
    - intros x Hx. rewrite decide_False by (intros H; inversion H). rewrite sumZ_zero by (intros t Ht; unfold resetting; rewrite (proj1 (Hidle t Ht)); reflexivity).
      destruct (A excess_node x Hx) as (b & Hb & Hn & Hne & _). destruct (A nodes_excess b x Hb Hn Hne) as (_ & _ & v & _ & Ho). apply lk_true in Ho. rewrite Ho. reflexivity.
    - apply (ci_off _ _ _ _ _ _ _ _ _ _ I0).
    - intros b a i Hb Ha. destruct (A nodes_bucket b Hb) as (g & Hg & En). pose proof (ci_link _ _ _ _ _ _ _ _ _ _ I0 b g Hg) as HL. rewrite En in Ha.
      destruct (linked_at _ _ _ _ _ HL Ha) as [[H1 H2]|(j & H1 & H2)].
      + exists 0. split; [exact H1|]. left. split; [reflexivity|]. intros a' x Hlt Hx. rewrite En in Hx. apply lookup_lt_Some in Hx. cbn [length] in Hx. lia.
      + exists (Z.of_nat j - Z.of_nat i). split; [exact H2|]. right. exists (S a), j. split; [lia|]. split; [rewrite En; exact H1|]. split; [lia|]. intros a'' x Hlt. lia.
    - intros b x _ _ H. inversion H.
    - intros p Hr. rewrite sumZ_zero by (intros t Ht; unfold eholds; rewrite (proj1 (Hidle t Ht)); reflexivity). exact (ci_lock _ _ _ _ _ _ _ _ _ _ I0 p Hr).
    - rewrite (sumZ_zero epend) by (intros t Ht; unfold epend; rewrite (proj1 (Hidle t Ht)); reflexivity). lia.
    - exact Hvec.
    - rewrite sumZ_zero; [lia|]. intros q Hq. apply elem_of_list_fmap in Hq as (t & -> & Ht). rewrite (Hpr t Ht). apply bal_fresh.
    - intros p v [_ Ho]. apply lk_true in Ho. rewrite Ho. rewrite sumZ_zero; [reflexivity|]. intros t Ht. destruct (Hidle t Ht) as (H1 & H2 & _). unfold succ, rsucc. rewrite H1, H2.
      destruct (c_prog t) as [|[] ?]; try reflexivity. cbn [past]. rewrite andb_false_r. reflexivity.
    - intros t k Ht Hl. rewrite (proj1 (proj2 (Hidle t Ht))) in Hl. inversion Hl.
    - intros t k rest Ht _ Hc. rewrite (proj1 (Hidle t Ht)) in Hc. discriminate.
    - intros t Ht. destruct (Hidle t Ht) as (H1 & _ & H3). split; [intros op Hop; exact (Hp _ op H3 Hop)|]. rewrite H1. destruct (c_prog t); [reflexivity|exact Logic.I].
  Qed.
  (** *** at rest *)
  Section rest.
    Context (s : cshared V) (ls : list (cthread K V)) (Gn F : list nat) (I : einv s ls Gn F) (Hq : c_quiescent ls).
    Definition kept (g : option V * list (nat * V)) (b : nat) : option V * list (nat * V) := (if lk (c_occ s) b then g.1 else None, filter (fun x => x.1 ∉ Gn) g.2).
    Definition rest_lists : list (option V * list (nat * V)) := imap (fun b g => kept g b) G0.
    Lemma rest_occ_gn x : x ∈ Gn -> lk (c_occ s) x = false.
    Proof using All.
      intros Hx. pose proof (ei_occx _ _ _ _ _ _ _ _ _ _ _ _ I x (ei_gn _ _ _ _ _ _ _ _ _ _ _ _ I x Hx)) as H. rewrite decide_True in H by exact Hx.
      rewrite sumZ_zero in H by (intros t Ht; unfold resetting; rewrite (Hq t Ht); reflexivity). destruct (lk (c_occ s) x); [discriminate H|reflexivity].
    Qed.
    Lemma rest_occ_linked x : x ∈ G0 ≫= gpos -> x ∉ Gn -> lk (c_occ s) x = true.
    Proof using All.
      intros Hx Hn. pose proof (ei_occx _ _ _ _ _ _ _ _ _ _ _ _ I x Hx) as H. rewrite decide_False in H by exact Hn.
      rewrite sumZ_zero in H by (intros t Ht; unfold resetting; rewrite (Hq t Ht); reflexivity). destruct (lk (c_occ s) x); [reflexivity|discriminate H].
    Qed.
    Lemma rest_kept b g' : rest_lists !! b = Some g' -> exists g, G0 !! b = Some g /\ g' = kept g b.
    Proof. unfold rest_lists. rewrite list_lookup_imap. destruct (G0 !! b) as [g|]; [|discriminate]. intros H. injection H as <-. eauto. Qed.
    Lemma gpos_kept g b : gpos (kept g b) = filter (fun x => x ∉ Gn) (gpos g).
    Proof.
      unfold gpos, kept. cbn [snd]. induction g.2 as [|[x v] l IH]; [reflexivity|]. rewrite !filter_cons. cbn [fst fmap list_fmap]. rewrite filter_cons.
      destruct (decide (x ∉ Gn)) as [H|H]; [cbn [fmap list_fmap fst]; f_equal; exact IH|exact IH].
    Qed.
    Lemma gpos_rest : rest_lists ≫= gpos = filter (fun x => x ∉ Gn) (G0 ≫= gpos).
    Proof. apply imap_bind_filter. intros b g. apply gpos_kept. Qed.
    Lemma rest_free : F ≡ₚ Gn ++ F0.
    Proof using All.
      pose proof (ei_perm _ _ _ _ _ _ _ _ _ _ _ _ I) as H. symmetry. assert (Hz : ls ≫= ehand = []); [|rewrite Hz in H; exact H].
      revert Hq. clear. induction ls as [|t l IH]; intros Hq; [reflexivity|]. change (ehand t ++ (l ≫= ehand) = []). rewrite IH by (intros t' Ht; apply Hq; right; exact Ht). unfold ehand. rewrite (Hq t) by left. reflexivity.
    Qed.
    Lemma rest_linked b : (b < bc)%nat -> forall m a i, (length (nodes b) - a <= m)%nat -> nodes b !! a = Some i -> rtc (nxt s) b i -> linked (c_off s) i (filter (fun x => x ∉ Gn) (drop (S a) (nodes b))).
    Proof using All.
      intros Hb. induction m as [|m IH]; intros a i Hm Ha Hr; [apply lookup_lt_Some in Ha; lia|].
      destruct (ei_next _ _ _ _ _ _ _ _ _ _ _ _ I b a i Hb Ha) as (o & Ho & [[-> H]|(a' & j & H1 & H2 & H3 & H4)]).
      - assert (Hnil : filter (fun x => x ∉ Gn) (drop (S a) (nodes b)) = []).
        { destruct (filter (fun x => x ∉ Gn) (drop (S a) (nodes b))) as [|y l] eqn:Ef; [reflexivity|]. exfalso.
          assert (Hy : y ∈ filter (fun x => x ∉ Gn) (drop (S a) (nodes b))) by (rewrite Ef; left). apply elem_of_list_filter in Hy as [Hy1 Hy2]. apply elem_of_list_lookup in Hy2 as [c Hc]. rewrite lookup_drop in Hc. apply Hy1, (H (S a + c)%nat y); [lia|exact Hc]. }
        rewrite Hnil. exact Ho.
      - assert (Hij : j <> i). { intros ->. pose proof (A ef_idx s ls Gn F I b a a' i Hb Ha H2). lia. }
        assert (Hn : nxt s i j) by (exists o; repeat split; [exact Ho|lia|exact H3]).
        assert (Hj : rtc (nxt s) b j) by (etransitivity; [exact Hr|apply rtc_once; exact Hn]).
        pose proof (ei_live _ _ _ _ _ _ _ _ _ _ _ _ I b j Hb Hj) as Hjl.
        assert (Ef : filter (fun x => x ∉ Gn) (drop (S a) (nodes b)) = j :: filter (fun x => x ∉ Gn) (drop (S a') (nodes b))).
        { assert (Es : drop (S a) (nodes b) = take (a' - S a) (drop (S a) (nodes b)) ++ j :: drop (S a') (nodes b)).
          { rewrite <- (take_drop (a' - S a) (drop (S a) (nodes b))) at 1. f_equal. rewrite drop_drop. replace (S a + (a' - S a))%nat with a' by lia. apply drop_S. exact H2. }
          rewrite Es, filter_app, filter_cons_True by exact Hjl. assert (Hnil : filter (fun x => x ∉ Gn) (take (a' - S a) (drop (S a) (nodes b))) = []); [|rewrite Hnil; reflexivity].
          destruct (filter (fun x => x ∉ Gn) (take (a' - S a) (drop (S a) (nodes b)))) as [|y l] eqn:Ef; [reflexivity|]. exfalso.
          assert (Hy : y ∈ filter (fun x => x ∉ Gn) (take (a' - S a) (drop (S a) (nodes b)))) by (rewrite Ef; left). apply elem_of_list_filter in Hy as [Hy1 Hy2]. apply elem_of_list_lookup in Hy2 as [c Hc].
          apply lookup_take_Some in Hc as [Hc Hlt]. rewrite lookup_drop in Hc. apply Hy1, (H4 (S a + c)%nat y); [lia|exact Hc]. }
        rewrite Ef. split; [exact Hij|]. split; [rewrite Ho; f_equal; lia|]. apply (IH a' j); [lia|exact H2|exact Hj].
    Qed.
    Lemma ended_lookup p o : c_values s !! p = Some o -> c_values (ended s) !! p = Some (if lk (c_occ s) p then o else None).
    Proof. intros H. cbn [ended c_values]. rewrite list_lookup_imap, H. cbn. unfold lk. destruct (c_occ s !! p) as [[]|]; reflexivity. Qed.
    Lemma ended_occ p v : st0 p v -> lk (c_occ s) p = true -> c_values (ended s) !! p = Some (Some v) /\ c_occ (ended s) !! p = Some true.
    Proof using All.
      intros [Hv _] Ho. split; [|apply lk_true; exact Ho]. rewrite (ended_lookup p (Some v)); [rewrite Ho; reflexivity|]. rewrite (ei_val _ _ _ _ _ _ _ _ _ _ _ _ I). exact Hv.
    Qed.
    Definition idle_thread : cthread K V := {| c_prog := []; c_pc := UIdle; c_log := [] |}.
    Lemma kd_sub (g : option V * list (nat * V)) (P : nat * V -> Prop) {HP : forall x, Decision (P x)} (o : option V) : (o = g.1 \/ o = None) -> keys_distinct kf keq (gvals g) -> keys_distinct kf keq (olist o ++ (filter P g.2).*2).
    Proof.
      intros Ho H. assert (Hs : olist o ++ (filter P g.2).*2 `sublist_of` gvals g).
      { unfold gvals. apply sublist_app; [destruct Ho as [-> | ->]; [reflexivity|apply sublist_nil_l]|]. clear. induction g.2 as [|y l IH]; [apply sublist_nil|]. rewrite filter_cons. destruct (decide (P y)); cbn [fmap list_fmap]; [apply sublist_skip; exact IH|apply sublist_cons; exact IH]. }
      revert H. generalize dependent (gvals g). generalize (olist o ++ (filter P g.2).*2). intros l1 l2 Hs. induction Hs as [|x l1 l2 Hs IH|x l1 l2 Hs IH].
      - intros _ i j v w Hi. destruct i; discriminate.
      - intros H. assert (H2 : keys_distinct kf keq l2) by (intros i j v w Hi Hj Hk; pose proof (H (S i) (S j) v w Hi Hj Hk); lia).
        assert (Hx : forall j w, l1 !! j = Some w -> exists j', l2 !! j' = Some w). { intros j w Hj. apply elem_of_list_lookup. eapply elem_of_submseteq; [eapply elem_of_list_lookup_2; exact Hj|apply sublist_submseteq; exact Hs]. }
        intros [|i] [|j] v w Hi Hj Hk.
        + reflexivity.
        + injection Hi as ->. destruct (Hx j w Hj) as [j' Hj']. pose proof (H 0%nat (S j') v w eq_refl Hj' Hk). lia.
        + injection Hj as ->. destruct (Hx i v Hi) as [i' Hi']. pose proof (H (S i') 0%nat v w Hi' eq_refl Hk). lia.
        + f_equal. exact (IH H2 i j v w Hi Hj Hk).
      - intros H. apply IH. intros i j v w Hi Hj Hk. pose proof (H (S i) (S j) v w Hi Hj Hk). lia.
    Qed.
    Lemma rest_cinv m : m = Z.of_nat (length (rest_lists ≫= gvals)) ->
      cinv (K:=K) kf hash keq bc E (rest_lists ≫= gvals) (put_count (ended s) m) ((fun _ => idle_thread) <$> ls) rest_lists F.
    Proof using All.
      intros Hm. set (lsE := (fun _ => idle_thread) <$> ls). assert (HlsE : forall t, t ∈ lsE -> t = idle_thread) by (intros t Ht; apply elem_of_list_fmap in Ht as (_ & -> & _); reflexivity).
      assert (Hb0 : forall B (f : cthread K V -> list B), f idle_thread = [] -> lsE ≫= f = []).
      { intros B f Hf. unfold lsE. clear -Hf. induction ls as [|t l IH]; [reflexivity|]. change (f idle_thread ++ (((fun _ => idle_thread) <$> l) ≫= f) = []). rewrite Hf, IH. reflexivity. }
      pose proof (fun b g => cf_head_range kf hash keq bc E keq_refl keq_sym keq_trans Hhash Hbc HE Hmax M0 s0 [] G0 F0 I0 b g) as Hhr.
      assert (Hhead : forall b g, G0 !! b = Some g -> lk (c_occ s) b = true -> exists v, g.1 = Some v /\ st0 b v).
      { intros b g Hg Ho. destruct (ei_occ _ _ _ _ _ _ _ _ _ _ _ _ I b Ho) as [v Hv]. destruct (ci_head _ _ _ _ _ _ _ _ _ _ I0 b g Hg) as [H1 H2]. destruct Hv as [Hv1 Hv2]. rewrite Hv2 in H1. injection H1 as H1.
        destruct g.1 as [w|]; [|discriminate]. exists w. split; [reflexivity|]. split; [apply H2; reflexivity|exact Hv2]. }
      assert (Hsub : forall b g' v, rest_lists !! b = Some g' -> v ∈ gvals g' -> exists g, G0 !! b = Some g /\ v ∈ gvals g).
      { intros b g' v Hg Hv. destruct (rest_kept b g' Hg) as (g & Hg0 & ->). exists g. split; [exact Hg0|]. unfold gvals, kept in *. cbn [fst snd] in Hv. apply elem_of_app in Hv as [Hv|Hv]; apply elem_of_app; [left|right].
        - destruct (lk (c_occ s) b); [exact Hv|inversion Hv].
        - apply elem_of_list_fmap in Hv as (y & -> & Hy). apply elem_of_list_filter in Hy as [_ Hy]. apply elem_of_list_fmap. eauto. }
      split; cbn [put_count ended c_values c_off c_occ c_locks c_count c_ex].
      - rewrite imap_length, (ei_val _ _ _ _ _ _ _ _ _ _ _ _ I). apply (ci_lv _ _ _ _ _ _ _ _ _ _ I0).
      - apply (ei_lf _ _ _ _ _ _ _ _ _ _ _ _ I).
      - apply (ei_lo _ _ _ _ _ _ _ _ _ _ _ _ I).
      - apply (ei_ll _ _ _ _ _ _ _ _ _ _ _ _ I).
      - unfold rest_lists. rewrite imap_length. apply (ci_lg _ _ _ _ _ _ _ _ _ _ I0).
      - rewrite (Hb0 nat hand eq_refl), gpos_rest. cbn [app]. rewrite rest_free. rewrite <- (ci_perm _ _ _ _ _ _ _ _ _ _ I0). cbn [mbind list_bind app]. rewrite app_assoc. apply Permutation_app; [|reflexivity].
        pose proof (cf_nodup kf hash keq bc E keq_refl keq_sym keq_trans Hhash Hbc HE Hmax M0 s0 [] G0 F0 I0) as Hnd. apply NoDup_app in Hnd as [Hnd _].
        apply NoDup_Permutation; [|exact Hnd|].
        + apply NoDup_app. split; [apply NoDup_filter; exact Hnd|]. split; [|apply (ei_gnd _ _ _ _ _ _ _ _ _ _ _ _ I)]. intros x Hx. apply elem_of_list_filter in Hx as [Hx _]. exact Hx.
        + intros x. rewrite elem_of_app, elem_of_list_filter. split; [intros [[_ H]|H]; [exact H|exact (ei_gn _ _ _ _ _ _ _ _ _ _ _ _ I x H)]|]. intros H. destruct (decide (x ∈ Gn)); auto.
      - intros b g' Hg. destruct (rest_kept b g' Hg) as (g & Hg0 & ->). cbn [kept fst]. destruct (lookup_lt_is_Some_2 (c_occ s) b) as [o Ho]; [rewrite (ei_lo _ _ _ _ _ _ _ _ _ _ _ _ I); pose proof (Hhr b g Hg0); lia|].
        destruct (lk (c_occ s) b) eqn:El.
        + destruct (Hhead b g Hg0 El) as (v & Ev & Hv). rewrite Ev. split; [apply lk_true; exact El|]. intros w Hw. injection Hw as <-. apply (ended_occ b v Hv El).
        + split; [|discriminate]. rewrite Ho. unfold lk in El. rewrite Ho in El. cbn in El. rewrite El. reflexivity.
      - intros b g' Hg. destruct (rest_kept b g' Hg) as (g & Hg0 & ->). rewrite gpos_kept. pose proof (Hhr b g Hg0) as Hb. destruct (A nodes_bucket b Hb) as (g1 & Hg1 & En). rewrite Hg0 in Hg1. injection Hg1 as <-.
        pose proof (rest_linked b Hb (length (nodes b)) 0%nat b ltac:(lia) (nodes_head G0 b) (rtc_refl _ _)) as H. rewrite En in H. exact H.
      - intros b g' p v Hg Hp. destruct (rest_kept b g' Hg) as (g & Hg0 & ->). cbn [kept snd] in Hp. apply elem_of_list_filter in Hp as [Hn Hp]. cbn [fst] in Hn.
        assert (Hpg : p ∈ G0 ≫= gpos). { apply (cf_in G0 b g p Hg0). unfold gpos. apply elem_of_list_fmap. exists (p, v). auto. }
        apply (ended_occ p v); [exact (ci_chain _ _ _ _ _ _ _ _ _ _ I0 b g p v Hg0 Hp)|exact (rest_occ_linked p Hpg Hn)].
      - intros p Hp. rewrite rest_free in Hp. assert (El : lk (c_occ s) p = false).
        { apply elem_of_app in Hp as [Hp|Hp]; [exact (rest_occ_gn p Hp)|]. destruct (lk (c_occ s) p) eqn:El; [|reflexivity]. destruct (ei_occ _ _ _ _ _ _ _ _ _ _ _ _ I p El) as (v & _ & Hv). rewrite (ci_free _ _ _ _ _ _ _ _ _ _ I0 p Hp) in Hv. discriminate. }
        assert (Hr : (p < n)%nat). { apply elem_of_app in Hp as [Hp|Hp]; [pose proof (A ef_gn_range s ls Gn F I p Hp); lia|]. pose proof (cf_free_range kf hash keq bc E keq_refl keq_sym keq_trans Hhash Hbc HE Hmax M0 s0 [] G0 F0 I0 p Hp). lia. }
        destruct (lookup_lt_is_Some_2 (c_occ s) p) as [o Ho]; [rewrite (ei_lo _ _ _ _ _ _ _ _ _ _ _ _ I); exact Hr|]. unfold lk in El. rewrite Ho in *. cbn in El. rewrite El. reflexivity.
      - apply (ei_off _ _ _ _ _ _ _ _ _ _ _ _ I).
      - intros p Hr. rewrite (sumZ_zero (lvc kf hash bc p)) by (intros t Ht; rewrite (HlsE t Ht); reflexivity).
        destruct (lookup_lt_is_Some_2 (c_values s) p) as [o Ho]; [rewrite (ei_val _ _ _ _ _ _ _ _ _ _ _ _ I), (ci_lv _ _ _ _ _ _ _ _ _ _ I0); exact Hr|].
        pose proof (ended_lookup p o Ho) as He. change (imap _ _) with (c_values (ended s)). unfold lkd. rewrite He. destruct (lk (c_occ s) p) eqn:El; [|reflexivity].
        destruct (ei_occ _ _ _ _ _ _ _ _ _ _ _ _ I p El) as (v & Hv & _). rewrite <- (ei_val _ _ _ _ _ _ _ _ _ _ _ _ I), Ho in Hv. injection Hv as ->. reflexivity.
      - intros p Hr. rewrite (sumZ_zero (holds_lock kf hash bc p)) by (intros t Ht; rewrite (HlsE t Ht); reflexivity). rewrite (ei_lock _ _ _ _ _ _ _ _ _ _ _ _ I p Hr). apply sumZ_zero. intros t Ht. unfold eholds. rewrite (Hq t Ht). reflexivity.
      - rewrite (sumZ_zero pend) by (intros t Ht; rewrite (HlsE t Ht); reflexivity). lia.
      - intros b g' v Hg Hv. destruct (Hsub b g' v Hg Hv) as (g & Hg0 & Hv0). exact (ci_bkt _ _ _ _ _ _ _ _ _ _ I0 b g v Hg0 Hv0).
      - intros b g' Hg. destruct (rest_kept b g' Hg) as (g & Hg0 & ->). unfold gvals, kept. cbn [fst snd]. apply kd_sub; [destruct (lk (c_occ s) b); auto|]. exact (ci_kd _ _ _ _ _ _ _ _ _ _ I0 b g Hg0).
      - intros t Ht. rewrite (HlsE t Ht). split; [split; [intros op Hop; inversion Hop|reflexivity]|exact Logic.I].
      - assert (Ev : proj <$> lsE = eproj <$> ls); [|rewrite Ev; exact (ei_vec _ _ _ _ _ _ _ _ _ _ _ _ I)]. unfold lsE. revert Hq. clear. induction ls as [|t l IH]; intros Hq; [reflexivity|]. cbn [fmap list_fmap]. f_equal; [|apply IH; intros t' Ht; apply Hq; right; exact Ht].
        unfold eproj. rewrite (Hq t) by left. reflexivity.
      - rewrite Hb0 by reflexivity. rewrite app_nil_r. reflexivity.
      - intros t p v Ht Hp. rewrite (HlsE t Ht) in Hp. inversion Hp.
    Qed.
    Lemma rest_quiet : c_quiescent ((fun _ => idle_thread) <$> ls).
    Proof. intros t Ht. apply elem_of_list_fmap in Ht as (_ & -> & _). reflexivity. Qed.
    Lemma rest_count : c_count s = Z.of_nat (length (rest_lists ≫= gvals)).
    Proof using All.
      destruct (quiet_urep kf hash keq bc E keq_refl keq_sym keq_trans Hhash Hbc HE Hmax _ _ _ _ _ (replicate n 0) (rest_cinv _ eq_refl) rest_quiet) as [st R]; [exact (proj1 (A ef_room s ls Gn F I))|apply replicate_length|].
      pose proof (occ_count kf hash keq true (seq 0) (fun n => reflexivity _) keq_refl keq_sym keq_trans Hhash bc E Hbc HE Hmax _ _ _ _ R) as H. cbn [utab_of u_occ put_count ended c_occ] in H.
      rewrite (ei_count _ _ _ _ _ _ _ _ _ _ _ _ I), <- H, bcount_sum. rewrite (sumZ_zero epend) by (intros t Ht; unfold epend; rewrite (Hq t Ht); reflexivity). lia.
    Qed.
    Lemma rest_cinv' : cinv (K:=K) kf hash keq bc E (rest_lists ≫= gvals) (ended s) ((fun _ => idle_thread) <$> ls) rest_lists F.
    Proof using All. pose proof (rest_cinv _ rest_count) as H. exact H. Qed.
    Lemma rest_urep (indices : list Z) : length indices = n -> exists st, urep kf hash keq true bc E (replicate n false) (utab_of bc indices (ended s)) rest_lists st.
    Proof using All.
      intros Hn. eapply (quiet_urep kf hash keq bc E keq_refl keq_sym keq_trans Hhash Hbc HE Hmax); [exact rest_cinv'|exact rest_quiet| |exact Hn]. exact (proj1 (A ef_room s ls Gn F I)).
    Qed.
    (** what is left *)
    Lemma rest_entry p v : entry s p v <-> st0 p v /\ erased_times keq (kf v) ls = 0.
    Proof using All.
      assert (Hs : sumZ (succ keq (kf v)) ls = erased_times keq (kf v) ls).
      { unfold erased_times. apply sumZ_ext. intros t Ht. unfold succ, rsucc. rewrite (Hq t Ht). unfold lsucc. destruct (c_prog t) as [|[] ?]; try lia. cbn [past]. rewrite andb_false_r. lia. }
      split.
      - intros [Hv Ho]. apply lk_true in Ho. destruct (ei_occ _ _ _ _ _ _ _ _ _ _ _ _ I p Ho) as [w Hw]. assert (w = v) as -> by (destruct Hw as [Hw _]; rewrite (ei_val _ _ _ _ _ _ _ _ _ _ _ _ I) in Hv; congruence).
        split; [exact Hw|]. pose proof (ei_succ _ _ _ _ _ _ _ _ _ _ _ _ I p v Hw) as H. rewrite Ho in H. cbn in H. lia.
      - intros [Hv He]. pose proof (ei_succ _ _ _ _ _ _ _ _ _ _ _ _ I p v Hv) as H. destruct (lk (c_occ s) p) eqn:El; [|cbn in H; lia].
        split; [rewrite (ei_val _ _ _ _ _ _ _ _ _ _ _ _ I); apply Hv|apply lk_true; exact El].
    Qed.
  End rest.
End efinal.
