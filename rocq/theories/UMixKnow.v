(** What the running insert and the running erase know about the lists (C68). *)
From Verif Require Import Base Conc SlotModel SlotSpec SlotProofs VectorModel VectorProofs VectorConcProofs UnorderedModel UnorderedSpec UnorderedProofs UConcModel UConcProofs UEraseModel UEraseProofs UMixSpec UMixVec UMixShape.

(** ** lists of offsets *)
Lemma linked_det off p P Q : linked off p P -> linked off p Q -> P = Q.
Proof.
  revert p Q. induction P as [|x P IH]; intros p [|y Q]; cbn [linked]; auto.
  - intros H (H1 & H2 & _). rewrite H in H2. injection H2. lia.
  - intros (H1 & H2 & _) H. rewrite H in H2. injection H2. lia.
  - intros (H1 & H2 & H3) (H4 & H5 & H6). rewrite H2 in H5. injection H5 as H5. assert (x = y) as -> by lia. f_equal. eapply IH; eauto.
Qed.
Lemma linked_nodup off p P : linked off p P -> NoDup (p :: P).
Proof.
  revert p. induction P as [|x P IH]; intros p HL; [apply NoDup_singleton|]. pose proof HL as (H1 & H2 & H3). apply NoDup_cons. split; [|apply IH; exact H3].
  intros Hin. apply elem_of_list_split in Hin as (A & B & E1). rewrite E1 in HL. pose proof (linked_split off p (A ++ [p]) B) as HS. rewrite <- app_assoc in HS. specialize (HS HL). rewrite lend_snoc in HS.
  pose proof (linked_det _ _ _ _ HL HS) as E2. apply (f_equal length) in E2. rewrite app_length in E2. cbn in E2. lia.
Qed.
Lemma split_two {A} (pre suf L1 L2 : list A) q p : pre ++ suf = L1 ++ q :: p :: L2 ->
  (exists k, pre = L1 ++ q :: p :: k /\ L2 = k ++ suf) \/ (pre = L1 ++ [q] /\ suf = p :: L2) \/ (exists k, L1 = pre ++ k /\ suf = k ++ q :: p :: L2).
Proof.
  revert L1. induction pre as [|x pre IH]; intros L1 H; [right; right; exists L1; auto|]. destruct L1 as [|y L1]; cbn in H; injection H as -> H.
  - destruct pre as [|y pre]; cbn in H; [right; left; auto|]. injection H as -> H. left. exists pre. auto.
  - destruct (IH L1 H) as [(k & -> & ->)|[[-> ->]|(k & -> & ->)]]; [left; exists k; auto|right; left; auto|right; right; exists k; auto].
Qed.

Section know.
  Context {K V : Type} (kf : V -> K) (hash : K -> Z) (keq : K -> K -> bool) (bc E : nat).
  Hypothesis HP : key_equality keq /\ hash_respects keq hash /\ sizes_ok bc E.
  Context (M0 : list V) (ii ie : nat).
  Notation n := (bc + E)%nat.
  Notation bkt := (bkt hash bc).
  Notation shape := (shape kf hash keq bc E).
  Notation ev := (nat * option ((cop K V * cret) * list V))%type.
  Implicit Types (s : cshared V) (G : list (option V * list (nat * V))) (F D L : list nat) (a b : qthread Z) (H : list ev).

  (** *** the calls that have taken effect so far, each with the values after it; [(i, None)]: thread [i] has begun a call *)
  Definition lst H : list V := foldl (fun M e => match e.2 with Some x => x.2 | None => M end) M0 H.
  Definition own (j : nat) H : list ev := filter (fun e => e.1 = j) H.
  Definition since (j : nat) H (Q : list V -> Prop) : Prop := exists H1 H2, H = H1 ++ H2 /\ own j H2 = [] /\ Q (lst H1).
  Lemma lst_app H1 H2 : lst (H1 ++ H2) = foldl (fun M e => match e.2 with Some x => x.2 | None => M end) (lst H1) H2.
  Proof. apply foldl_app. Qed.
  Lemma own_app j H1 H2 : own j (H1 ++ H2) = own j H1 ++ own j H2.
  Proof. apply filter_app. Qed.
  Lemma own_other j j' x : j <> j' -> own j [(j', x)] = [].
  Proof. intros Hne. unfold own. rewrite filter_cons_False; [reflexivity|]. cbn. congruence. Qed.
  Lemma own_same j x : own j [(j, x)] = [(j, x)].
  Proof. unfold own. rewrite filter_cons_True; reflexivity. Qed.
  Lemma since_now j H (Q : list V -> Prop) : Q (lst H) -> since j H Q.
  Proof. intros HQ. exists H, []. rewrite app_nil_r. auto. Qed.
  Lemma since_ext j H j' x Q : j <> j' -> since j H Q -> since j (H ++ [(j', x)]) Q.
  Proof. intros Hne (H1 & H2 & -> & Ho & HQ). exists H1, (H2 ++ [(j', x)]). rewrite <- app_assoc. split; [reflexivity|]. split; [|exact HQ]. rewrite own_app, Ho, own_other by exact Hne. reflexivity. Qed.
  (** a call without effect is put in somewhere *)
  Lemma lst_put H1 H2 j x : lst (H1 ++ (j, Some (x, lst H1)) :: H2) = lst (H1 ++ H2).
  Proof. rewrite !lst_app. reflexivity. Qed.
  Lemma since_put j H1 H2 j' x Q : j <> j' -> since j (H1 ++ H2) Q -> since j (H1 ++ (j', Some (x, lst H1)) :: H2) Q.
  Proof.
    intros Hne (A & B & E1 & Ho & HQ). destruct (app_eq_inv _ _ _ _ E1) as [(k & E2 & E3)|(k & E2 & E3)].
    - exists A, (k ++ (j', Some (x, lst H1)) :: H2). subst. rewrite <- app_assoc. split; [reflexivity|]. split; [|exact HQ].
      rewrite own_app in Ho. apply app_nil in Ho as [Ho1 Ho2]. rewrite own_app, Ho1. change ((j', Some (x, lst (A ++ k))) :: H2) with ([(j', Some (x, lst (A ++ k)))] ++ H2). rewrite own_app, own_other, Ho2 by exact Hne. reflexivity.
    - exists (H1 ++ (j', Some (x, lst H1)) :: k), B. subst. rewrite <- app_assoc. split; [reflexivity|]. split; [exact Ho|]. rewrite lst_put. exact HQ.
  Qed.

  (** *** a walk along the list of bucket [c], at entry [i]: it has passed [pre], sees the rest [suf] of the list, maybe by way of entries [us] taken out of the list *)
  Definition walk s G (c : nat) (us pre suf : list nat) (i : nat) : Prop :=
    exists tl, lst_of G c = pre ++ suf /\ us ++ suf = i :: tl /\ linked (c_off s) i tl /\ forall x, x ∈ us -> (bc <= x < n)%nat /\ x ∉ G ≫= gpos.
  Definition iwalk s G H (k : K) (incl : bool) (i : nat) : Prop :=
    exists us pre suf, walk s G (bkt k) us pre suf i /\ (forall x w, x ∈ pre -> (x, w) ∈ ents G (bkt k) -> keq (kf w) k = false) /\
      (incl = true -> forall w, (i, w) ∈ ents G (bkt k) -> keq (kf w) k = false) /\
      (forall x w, x ∈ us -> c_values s !! x = Some (Some w) -> since ii H (fun M => w ∈ M)).
  Definition ewalk s G (c : nat) (o : option nat) (i : nat) : Prop :=
    exists us pre suf, walk s G c us pre suf i /\ forall e, o = Some e -> (e < n)%nat /\ (e ∈ lst_of G c \/ e ∉ us).
  Definition isend G (c e : nat) : Prop := e = lend c (gpos (gb G c)).
  Definition room s : Prop := 0 < q_c (c_ex s).
  Definition ictx G (c : nat) (x : fctx) : Prop :=
    match x with FIns1 | FInsB => True | FInsL e chk => (e < n)%nat /\ (chk = e -> isend G c e) | _ => False end.
  Definition eopt (x : ectx) : option nat := match x with EIns1 => None | EIns2 e => Some e end.
  Definition kI s G H (v : V) (pc : upc) : Prop :=
    let k := kf v in let c := bkt k in
    match pc with
    | UFullCheck | UEmptyCheck | IUnlB _ | IUnlL _ _ => True
    | FOcc x i => room s /\ ictx G c x /\ iwalk s G H k false i
    | FVal x i => room s /\ ictx G c x /\ iwalk s G H k false i /\ exists w, c_values s !! i = Some (Some w) /\ since ii H (fun M => w ∈ M)
    | FOff x i | FAdd x i => room s /\ ictx G c x /\ iwalk s G H k true i
    | EOff x i | EAdd x i => room s /\ ewalk s G c (eopt x) i
    | IOcc | ILockB => room s
    | ILockL e => room s /\ (e < n)%nat
    | IOccB => absent kf hash keq bc G k
    | IConB => absent kf hash keq bc G k /\ (gb G c).1 = None
    | ICntB | ISetB => absent kf hash keq bc G k /\ (gb G c).1 = None /\ c_values s !! c = Some (Some v)
    | IPop e q => absent kf hash keq bc G k /\ isend G c e /\ popping q /\ (claimed q = false -> room s)
    | IConL e p => absent kf hash keq bc G k /\ isend G c e /\ c_occ s !! p = Some false
    | IOffL e p => absent kf hash keq bc G k /\ isend G c e /\ c_occ s !! p = Some false /\ c_values s !! p = Some (Some v)
    | ICntL e p | ISetL e p => absent kf hash keq bc G k /\ isend G c e /\ c_occ s !! p = Some false /\ c_values s !! p = Some (Some v) /\ c_off s !! p = Some 0
    | ILinkL e p => absent kf hash keq bc G k /\ isend G c e /\ c_occ s !! p = Some true /\ c_values s !! p = Some (Some v) /\ c_off s !! p = Some 0
    | _ => False
    end.
  Definition ihand (pc : upc) : list nat := match pc with IConL _ p | IOffL _ p | ICntL _ p | ISetL _ p | ILinkL _ p => [p] | _ => [] end.

  (** *** the erase *)
  Definition miss G H (k : K) (l : list nat) : Prop := since ie H (fun M => ~ holds kf keq M k) \/ exists x w, x ∈ l /\ (x, w) ∈ ents G (bkt k) /\ keq (kf w) k = true.
  Definition base G (c p q : nat) : Prop := p ∈ lst_of G c /\ p <> c /\ q ∈ lst_of G c.
  Definition xctx G (c : nat) (x : fctx) : Prop := match x with FEr1 => True | FErB p => p = c | FErL p q => base G c p q | _ => False end.
  Definition at_ (G : list (option V * list (nat * V))) (c i : nat) (P : list nat -> Prop) : Prop := exists pre suf, lst_of G c = pre ++ i :: suf /\ P suf.
  Definition hit G (k : K) (p : nat) : Prop := exists w, (p, w) ∈ ents G (bkt k) /\ keq (kf w) k = true.
  Definition pknow G (k : K) (x : pctx) (suf : list nat) : Prop :=
    match x with PEr1 p => p ∈ lst_of G (bkt k) /\ p <> bkt k | PEr2 p q same => base G (bkt k) p q /\ (same = true -> hit G k p /\ p ∈ suf) end.
  Definition ready G (k : K) (p q : nat) : Prop := exists w es1 es2, behind G (bkt k) q p w es1 es2 /\ keq (kf w) k = true.
  Definition some_at s (p : nat) : Prop := exists w, c_values s !! p = Some (Some w).
  Definition kE s G H (k : K) (pc : upc) : Prop :=
    let c := bkt k in
    match pc with
    | FOcc x i => xctx G c x /\ at_ G c i (fun suf => x = FEr1 -> miss G H k (i :: suf))
    | FVal x i => xctx G c x /\ (exists w, (i, w) ∈ ents G c) /\ at_ G c i (fun suf => x = FEr1 -> miss G H k (i :: suf))
    | FOff x i => xctx G c x /\ at_ G c i (fun suf => x = FEr1 -> miss G H k suf)
    | FAdd x i => xctx G c x /\ at_ G c i (fun suf => suf <> [] /\ (x = FEr1 -> miss G H k suf))
    | POff x i prev => prev = i /\ at_ G c i (pknow G k x)
    | PAdd x i prev => prev = i /\ at_ G c i (fun suf => suf <> [] /\ pknow G k x suf)
    | XLockB p => p = c
    | XResetB p => p = c /\ hit G k p
    | XCntB p | XDesB p => some_at s p
    | XLock1 p q | XLock2 p q => base G c p q
    | XTest p q => ready G k p q
    | XAdd1 p q => ready G k p q /\ c_off s !! p <> Some 0
    | XAdd2 p q o => ready G k p q /\ c_off s !! p = Some o /\ o <> 0
    | XPut p q o => ready G k p q /\ exists po qo, c_off s !! p = Some po /\ c_off s !! q = Some qo /\ o = if po =? 0 then 0 else qo + po
    | XReset p q => some_at s p
    | XCnt p q | XDes p q => some_at s p /\ c_occ s !! p = Some false
    | XPush p q x => c_occ s !! p = Some false /\ pushing_of p x
    | XUnlB _ _ | XUnl1 _ _ _ | XUnl2 _ _ | XBack _ => True
    | _ => False
    end.
  Definition xhand (pc : upc) : list nat := match pc with XReset p _ | XCnt p _ | XDes p _ | XPush p _ _ => [p] | _ => [] end.

  (** the entries whose offsets the erase counts on *)
  Definition xneed (pc : upc) : list nat := match pc with XAdd1 p q | XAdd2 p q _ | XPut p q _ => [p; q] | _ => [] end.
  (** *** how the erase changes what the insert knows *)
  Record shrink (lI : option nat) (hI : list nat) (c : nat) s G H s' G' H' : Prop := {
    sk_val : c_values s' = c_values s;
    sk_pos : room s -> room s';
    sk_since : forall Q, since ii H Q -> since ii H' Q;
    sk_ents : forall x w, (x, w) ∈ ents G' c -> (x, w) ∈ ents G c;
    sk_head : (gb G c).1 = None -> (gb G' c).1 = None;
    sk_lst : forall e, lI = Some e -> e ∈ lst_of G c -> e ∈ lst_of G' c;
    sk_end : forall e, lI = Some e -> isend G c e -> isend G' c e;
    sk_hand : forall p, p ∈ hI -> c_occ s' !! p = c_occ s !! p /\ c_off s' !! p = c_off s !! p;
    sk_walk : forall us pre suf i, walk s G c us pre suf i -> exists us' pre' suf', walk s' G' c us' pre' suf' i /\
      (forall x, x ∈ us' -> x ∈ us \/ (lI <> Some x /\ forall w, c_values s !! x = Some (Some w) -> since ii H' (fun M => w ∈ M))) /\ (forall x, x ∈ pre' -> x ∈ pre)
  }.
  Lemma kI_shrink s G H s' G' H' v pc : kI s G H v pc -> shrink (lock_at (bkt (kf v)) pc) (ihand pc) (bkt (kf v)) s G H s' G' H' -> kI s' G' H' v pc.
  Proof.
    set (c := bkt (kf v)). intros HK HS.
    assert (Habs : absent kf hash keq bc G (kf v) -> absent kf hash keq bc G' (kf v)) by (intros Ha x w Hx; apply (Ha x w); apply (sk_ents _ _ _ _ _ _ _ _ _ HS); exact Hx).
    assert (Hiw : forall incl i, iwalk s G H (kf v) incl i -> iwalk s' G' H' (kf v) incl i).
    { intros incl i (us & pre & suf & Hw & H1 & H2 & H3). destruct (sk_walk _ _ _ _ _ _ _ _ _ HS us pre suf i Hw) as (us' & pre' & suf' & Hw' & Hu & Hp). exists us', pre', suf'. split; [exact Hw'|]. split.
      { intros x w Hx Hxw. apply (H1 x w); [auto|]. apply (sk_ents _ _ _ _ _ _ _ _ _ HS); exact Hxw. }
      split; [intros Hi w Hw1; apply (H2 Hi w); apply (sk_ents _ _ _ _ _ _ _ _ _ HS); exact Hw1|].
      intros x w Hx Hv. rewrite (sk_val _ _ _ _ _ _ _ _ _ HS) in Hv. destruct (Hu x Hx) as [Hx'|[_ Hx']]; [|auto]. apply (sk_since _ _ _ _ _ _ _ _ _ HS). eauto. }
    assert (Hew : forall o i, (forall e, o = Some e -> lock_at c pc = Some e) -> ewalk s G c o i -> ewalk s' G' c o i).
    { intros o i Hl (us & pre & suf & Hw & H1). destruct (sk_walk _ _ _ _ _ _ _ _ _ HS us pre suf i Hw) as (us' & pre' & suf' & Hw' & Hu & Hp). exists us', pre', suf'. split; [exact Hw'|].
      intros e He. destruct (H1 e He) as [H2 [H3|H3]]; (split; [exact H2|]); [left; apply (sk_lst _ _ _ _ _ _ _ _ _ HS e (Hl e He) H3)|].
      right. intros Hx. destruct (Hu e Hx) as [Hx'|[Hx' _]]; [contradiction|]. apply Hx'. auto. }
    assert (Hctx : forall x, ictx G c x -> (match x with FInsL e _ => lock_at c pc = Some e | _ => True end) -> ictx G' c x).
    { intros [] Hx Hl; auto. destruct Hx as [H1 H2]. split; [exact H1|]. intros Hch. apply (sk_end _ _ _ _ _ _ _ _ _ HS _ Hl). auto. }
    pose proof (sk_pos _ _ _ _ _ _ _ _ _ HS) as Hroom. pose proof (sk_val _ _ _ _ _ _ _ _ _ HS) as Hval.
    pose proof (sk_end _ _ _ _ _ _ _ _ _ HS) as Hend. pose proof (sk_hand _ _ _ _ _ _ _ _ _ HS) as Hhand. pose proof (sk_since _ _ _ _ _ _ _ _ _ HS) as Hsi. pose proof (sk_head _ _ _ _ _ _ _ _ _ HS) as Hhd.
    destruct pc as [| | |x i|x i|x i|x i|x i|x i|x i pr|x i pr| | | | | | |r|e|e q|e p|e p|e p|e p|e p|e r|p|p|p|p|p ok|p q|p q|p|p q|p q|p q o|p q o|p q|p q|p q|p q x|p q ok|q ok];
      cbn [kI] in *; fold c in HK |- *; try contradiction; auto.
    - destruct HK as (R & C & W). split; [auto|]. split; [apply Hctx; [exact C|destruct x; try exact Logic.I; reflexivity]|auto].
    - destruct HK as (R & C & W & w & Hw & Hs). split; [auto|]. split; [apply Hctx; [exact C|destruct x; try exact Logic.I; reflexivity]|]. split; [auto|]. exists w. rewrite Hval. auto.
    - destruct HK as (R & C & W). split; [auto|]. split; [apply Hctx; [exact C|destruct x; try exact Logic.I; reflexivity]|auto].
    - destruct HK as (R & C & W). split; [auto|]. split; [apply Hctx; [exact C|destruct x; try exact Logic.I; reflexivity]|auto].
    - destruct HK as (R & W). split; [auto|]. apply Hew; [|exact W]. intros e He. destruct x; [discriminate|]. injection He as ->. reflexivity.
    - destruct HK as (R & W). split; [auto|]. apply Hew; [|exact W]. intros e He. destruct x; [discriminate|]. injection He as ->. reflexivity.
    - destruct HK as (A & B). auto.
    - destruct HK as (A & B & C). rewrite Hval. auto.
    - destruct HK as (A & B & C). rewrite Hval. auto.
    - destruct HK as (A & B). auto.
    - destruct HK as (A & B & C & D0). split; [auto|]. split; [apply Hend; [reflexivity|exact B]|]. split; [exact C|]. auto.
    - destruct HK as (A & B & C). split; [auto|]. split; [apply Hend; [reflexivity|exact B]|]. rewrite (proj1 (Hhand p ltac:(left))). exact C.
    - destruct HK as (A & B & C & D0). split; [auto|]. split; [apply Hend; [reflexivity|exact B]|]. rewrite (proj1 (Hhand p ltac:(left))), Hval. auto.
    - destruct HK as (A & B & C & D0 & E0). split; [auto|]. split; [apply Hend; [reflexivity|exact B]|]. rewrite (proj1 (Hhand p ltac:(left))), (proj2 (Hhand p ltac:(left))), Hval. auto.
    - destruct HK as (A & B & C & D0 & E0). split; [auto|]. split; [apply Hend; [reflexivity|exact B]|]. rewrite (proj1 (Hhand p ltac:(left))), (proj2 (Hhand p ltac:(left))), Hval. auto.
    - destruct HK as (A & B & C & D0 & E0). split; [auto|]. split; [apply Hend; [reflexivity|exact B]|]. rewrite (proj1 (Hhand p ltac:(left))), (proj2 (Hhand p ltac:(left))), Hval. auto.
  Qed.

  (** *** how the insert changes what the erase knows *)
  Record grow (lE : list nat) (hE : list nat) (c : nat) s G H s' G' H' : Prop := {
    gr_val : forall p, some_at s p -> some_at s' p;
    gr_since : forall Q, since ie H Q -> since ie H' Q;
    gr_ents : forall x w, (x, w) ∈ ents G c -> (x, w) ∈ ents G' c;
    gr_list : exists l, (gb G' c).2 = (gb G c).2 ++ l;
    gr_off : forall x, x ∈ lE -> c_off s' !! x = c_off s !! x;
    gr_occ : forall p, p ∈ hE -> c_occ s' !! p = c_occ s !! p
  }.
  Lemma kE_grow s G H s' G' H' k pc : kE s G H k pc -> grow (xneed pc) (xhand pc) (bkt k) s G H s' G' H' -> kE s' G' H' k pc.
  Proof.
    set (c := bkt k). intros HK HG. pose proof (gr_val _ _ _ _ _ _ _ _ _ HG) as Hval. pose proof (gr_ents _ _ _ _ _ _ _ _ _ HG) as Hents. pose proof (gr_off _ _ _ _ _ _ _ _ _ HG) as Hoff. pose proof (gr_occ _ _ _ _ _ _ _ _ _ HG) as Hocc.
    destruct (gr_list _ _ _ _ _ _ _ _ _ HG) as [l Hl].
    assert (Hlst : lst_of G' c = lst_of G c ++ l.*1) by (unfold lst_of, gpos; rewrite Hl, fmap_app; reflexivity).
    assert (Hin : forall x, x ∈ lst_of G c -> x ∈ lst_of G' c) by (intros x Hx; rewrite Hlst; apply elem_of_app; auto).
    assert (Hbase : forall p q, base G c p q -> base G' c p q) by (intros p q (B1 & B2 & B3); split; auto).
    assert (Hmiss : forall l1 l2, (forall x, x ∈ l1 -> x ∈ l2) -> miss G H k l1 -> miss G' H' k l2).
    { intros l1 l2 Hsub [Hm|(x & w & H1 & H2 & H3)]; [left; apply (gr_since _ _ _ _ _ _ _ _ _ HG); exact Hm|right; exists x, w; auto]. }
    assert (Hat : forall i (P P' : list nat -> Prop), (forall suf l', P suf -> P' (suf ++ l')) -> at_ G c i P -> at_ G' c i P').
    { intros i P P' Hi (pre & suf & E1 & Hs). exists pre, (suf ++ l.*1). rewrite Hlst, E1, <- app_assoc. split; [reflexivity|auto]. }
    assert (Hx : forall x, xctx G c x -> xctx G' c x) by (intros []; cbn; auto).
    assert (Hhit : forall p, hit G k p -> hit G' k p) by (intros p (w & H1 & H2); exists w; auto).
    assert (Hpk : forall x suf l', pknow G k x suf -> pknow G' k x (suf ++ l')).
    { intros [p|p q same] suf l'; cbn; [intros [H1 H2]; auto|]. intros [H1 H2]. split; [auto|]. intros Hs. destruct (H2 Hs). split; [auto|]. apply elem_of_app; auto. }
    assert (Hrd : forall p q, ready G k p q -> ready G' k p q).
    { intros p q (w & es1 & es2 & [H1 H2] & H3). exists w, es1, (es2 ++ l). split; [|exact H3]. split; [|exact H2]. fold c in H1 |- *. rewrite Hl, H1, <- app_assoc. reflexivity. }
    destruct pc as [| | |x i|x i|x i|x i|x i|x i|x i pr|x i pr| | | | | | |r|e|e q|e p|e p|e p|e p|e p|e r|p|p|p|p|p ok|p q|p q|p|p q|p q|p q o|p q o|p q|p q|p q|p q x|p q ok|q ok];
      cbn [kE] in *; fold c in HK |- *; try contradiction; auto.
    - destruct HK as (C & W). split; [auto|]. eapply Hat; [|exact W]. cbn beta. intros suf l' H1 H2. eapply Hmiss; [|exact (H1 H2)]. intros y Hy. rewrite app_comm_cons. apply elem_of_app; auto.
    - destruct HK as (C & (w & Hw) & W). split; [auto|]. split; [eauto|]. eapply Hat; [|exact W]. cbn beta. intros suf l' H1 H2. eapply Hmiss; [|exact (H1 H2)]. intros y Hy. rewrite app_comm_cons. apply elem_of_app; auto.
    - destruct HK as (C & W). split; [auto|]. eapply Hat; [|exact W]. cbn beta. intros suf l' H1 H2. eapply Hmiss; [|exact (H1 H2)]. intros y Hy. apply elem_of_app; auto.
    - destruct HK as (C & W). split; [auto|]. eapply Hat; [|exact W]. cbn beta. intros suf l' [H0 H1]. split; [destruct suf; [contradiction|discriminate]|]. intros H2. eapply Hmiss; [|exact (H1 H2)]. intros y Hy. apply elem_of_app; auto.
    - destruct HK as (C & W). split; [auto|]. eapply Hat; [|exact W]. auto.
    - destruct HK as (C & W). split; [auto|]. eapply Hat; [|exact W]. cbn beta. intros suf l' [H0 H1]. split; [destruct suf; [contradiction|discriminate]|auto].
    - destruct HK; auto.
    - destruct HK as [H1 H2]. rewrite Hoff by left. auto.
    - destruct HK as [H1 H2]. rewrite Hoff by left. auto.
    - destruct HK as [H1 H2]. rewrite !Hoff by (left || (right; left)). auto.
    - destruct HK as [H1 H2]. rewrite Hocc by left. auto.
    - destruct HK as [H1 H2]. rewrite Hocc by left. auto.
    - destruct HK as [H1 H2]. rewrite Hocc by left. auto.
  Qed.
End know.
