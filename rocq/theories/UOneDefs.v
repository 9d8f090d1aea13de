(** Kernels in which one thread erases and any number of threads insert: the invariant that gives memory safety (C67). *)
From Verif Require Import Base Conc SlotModel SlotSpec SlotProofs VectorModel VectorProofs VectorConcProofs UnorderedModel UnorderedSpec UnorderedProofs UConcModel UConcSpec UConcProofs UConcEnd UEraseModel UEraseProofs UMixVec UMixShape UOneVec.
From Verif Require UMixKnow.

Section one.
  Context {K V : Type} (kf : V -> K) (hash : K -> Z) (keq : K -> K -> bool) (bc E : nat).
  Hypothesis HP : key_equality keq /\ hash_respects keq hash /\ sizes_ok bc E.
  Context (ie : nat) (M0 : list V).
  Notation n := (bc + E)%nat.
  Notation bkt := (bkt hash bc).
  Implicit Types (s : cshared V) (t : cthread K V) (ls : list (cthread K V)) (C : list (list nat)) (F X : list nat) (R : list V) (op : cop K V).

  (** *** the lists *)
  Definition ch C (c : nat) : list nat := default [] (C !! c).
  Definition inC C (x : nat) : Prop := (x < bc)%nat \/ x ∈ C ≫= (fun l => l).
  Definition on C (b x : nat) : Prop := exists P1 P2, ch C b = P1 ++ P2 /\ x = lend b P1.
  Definition before C (b q p : nat) : Prop := exists P1 P2, ch C b = P1 ++ p :: P2 /\ q = lend b P1.
  Definition ahead C (b x p : nat) : Prop := exists P1 P2 P3, ch C b = P1 ++ P2 ++ p :: P3 /\ x = lend b P1.
  Definition ext C C' : Prop := forall c, exists more, ch C' c = ch C c ++ more.
  Definition nxt s (a b : nat) : Prop := c_off s !! a = Some (Z.of_nat b - Z.of_nat a).

  Lemma ext_refl C : ext C C.
  Proof. intros c. exists []. rewrite app_nil_r. reflexivity. Qed.
  Lemma ext_on C C' b x : ext C C' -> on C b x -> on C' b x.
  Proof. intros H (P1 & P2 & H1 & H2). destruct (H b) as [more Hm]. exists P1, (P2 ++ more). rewrite Hm, H1, <- app_assoc. auto. Qed.
  Lemma ext_before C C' b q p : ext C C' -> before C b q p -> before C' b q p.
  Proof. intros H (P1 & P2 & H1 & H2). destruct (H b) as [more Hm]. exists P1, (P2 ++ more). rewrite Hm, H1, <- app_assoc. auto. Qed.
  Lemma ext_ahead C C' b x p : ext C C' -> ahead C b x p -> ahead C' b x p.
  Proof. intros H (P1 & P2 & P3 & H1 & H2). destruct (H b) as [more Hm]. exists P1, P2, (P3 ++ more). rewrite Hm, H1, <- !app_assoc. auto. Qed.
  Lemma ch_in C c x : x ∈ ch C c -> x ∈ C ≫= (fun l => l).
  Proof. unfold ch. intros H. destruct (C !! c) as [l|] eqn:Hl; [|inversion H]. apply elem_of_list_bind. exists l. split; [exact H|]. eapply elem_of_list_lookup_2. exact Hl. Qed.
  Lemma in_ch C x : x ∈ C ≫= (fun l => l) -> exists c, (c < length C)%nat /\ x ∈ ch C c.
  Proof. intros H. apply elem_of_list_bind in H as (l & Hx & Hl). apply elem_of_list_lookup in Hl as [c Hc]. exists c. unfold ch. rewrite Hc. split; [eapply lookup_lt_Some; exact Hc|exact Hx]. Qed.
  Lemma ch_same C c l : (c < length C)%nat -> ch (<[c := l]> C) c = l.
  Proof. intros H. unfold ch. rewrite list_lookup_insert by exact H. reflexivity. Qed.
  Lemma ch_other C c c' l : c <> c' -> ch (<[c := l]> C) c' = ch C c'.
  Proof. intros H. unfold ch. rewrite list_lookup_insert_ne by exact H. reflexivity. Qed.
  Lemma on_inC C b x : (b < bc)%nat -> on C b x -> inC C x.
  Proof.
    intros Hb (P1 & P2 & H1 & ->). pose proof (lend_elem b P1) as H. apply elem_of_cons in H as [-> |H]; [left; exact Hb|]. right. apply (ch_in C b). rewrite H1. apply elem_of_app. auto.
  Qed.
  Lemma before_inC C b q p : (b < bc)%nat -> before C b q p -> inC C q /\ p ∈ C ≫= (fun l => l).
  Proof.
    intros Hb (P1 & P2 & H1 & ->). split; [eapply on_inC; [exact Hb|]; exists P1, (p :: P2); auto|]. apply (ch_in C b). rewrite H1. apply elem_of_app. right. left.
  Qed.
  Lemma ahead_inC C b x p : (b < bc)%nat -> ahead C b x p -> inC C x /\ p ∈ C ≫= (fun l => l).
  Proof.
    intros Hb (P1 & P2 & P3 & H1 & ->). split; [eapply on_inC; [exact Hb|]; exists P1, (P2 ++ p :: P3); auto|]. apply (ch_in C b). rewrite H1. apply elem_of_app. right. apply elem_of_app. right. left.
  Qed.

  (** *** what a thread holds *)
  Definition fheld (b : nat) (c : fctx) : list nat := match c with FInsB => [b] | FInsL e _ => [e] | FErB p => [p] | FErL p q => [p; q] | _ => [] end.
  Definition held (b : nat) (pc : upc) : list nat :=
    match pc with
    | FOcc c _ | FVal c _ | FOff c _ | FAdd c _ => fheld b c
    | EOff (EIns2 e) _ | EAdd (EIns2 e) _ => [e]
    | POff (PEr2 p q _) _ _ | PAdd (PEr2 p q _) _ _ => [p; q]
    | IOccB | IConB | ICntB | ISetB | IUnlB _ => [b]
    | IPop e _ | IConL e _ | IOffL e _ | ICntL e _ | ISetL e _ | ILinkL e _ | IUnlL e _ => [e]
    | XResetB p | XCntB p | XDesB p | XUnlB p _ | XLock2 p _ | XBack p => [p]
    | XTest p q | XAdd1 p q | XAdd2 p q _ | XPut p q _ | XReset p q | XCnt p q | XDes p q | XPush p q _ | XUnl1 p q _ => [p; q]
    | XUnl2 q _ => [q]
    | _ => []
    end.
  Definition hand (pc : upc) : list nat :=
    match pc with
    | IConL _ p | IOffL _ p | ICntL _ p | ISetL _ p | ILinkL _ p => [p]
    | XReset p _ | XCnt p _ | XDes p _ | XPush p _ _ => [p]
    | _ => []
    end.
  Definition cpend (pc : upc) : Z := match pc with ISetB | ISetL _ _ | XCntB _ | XCnt _ _ => 1 | _ => 0 end.
  Definition proj_at (pc : upc) : qthread Z := match pc with IPop _ q => q | XPush _ _ x => x | _ => fresh_call [] end.
  Definition leavesI (pc : upc) : bool := match pc with IUnlB (Some _) | ILinkL _ _ | IUnlL _ (Some _) => true | _ => false end.
  Definition leavesE (pc : upc) : bool := match pc with XCntB _ | XDesB _ | XUnlB _ true | XCnt _ _ | XDes _ _ | XPush _ _ _ | XUnl1 _ _ true | XUnl2 _ true => true | _ => false end.
  Definition tb t : nat := match c_prog t with op :: _ => bkt (op_key kf op) | [] => 0%nat end.
  Definition heldt t : list nat := held (tb t) (c_pc t).
  Definition handt t : list nat := hand (c_pc t).
  Definition projt t : qthread Z := proj_at (c_pc t).
  Definition pendt t : Z := cpend (c_pc t).
  Definition logI (l : list (cop K V * cret)) : list V := omap (fun x => match x with (CInsert v, RInserted _) => Some v | _ => None end) l.
  Definition logE (l : list (cop K V * cret)) : list K := omap (fun x => match x with (CErase k, RErased true) => Some k | _ => None end) l.
  Definition inst t : list V := logI (c_log t) ++ match c_prog t with CInsert v :: _ => if leavesI (c_pc t) then [v] else [] | _ => [] end.
  Definition erst t : list K := logE (c_log t) ++ match c_prog t with CErase k :: _ => if leavesE (c_pc t) then [k] else [] | _ => [] end.
  Definition erasedL ls : list K := match ls !! ie with Some t => erst t | None => [] end.

  (** *** what a thread knows *)
  Definition some_at s (x : nat) : Prop := exists v, c_values s !! x = Some (Some v).
  Definition hit s (x : nat) (k : K) : Prop := exists v, c_values s !! x = Some (Some v) /\ keq (kf v) k = true.
  Definition isI op : Prop := match op with CInsert _ => True | _ => False end.
  Definition isE op : Prop := match op with CErase _ => True | _ => False end.
  Definition isF op : Prop := match op with CFind _ => True | _ => False end.
  Definition own_value s op (x : nat) : Prop := match op with CInsert v => c_values s !! x = Some (Some v) | _ => False end.
  Definition fk s C op (c : fctx) (x : nat) : Prop :=
    match c with
    | FUser => isF op
    | FIns1 | FInsB => isI op
    | FInsL e e' => isI op /\ (e < n)%nat /\ (e = e' -> c_off s !! e = Some 0 /\ inC C e)
    | FEr1 => isE op /\ on C (bkt (op_key kf op)) x
    | FErB p => isE op /\ p = bkt (op_key kf op)
    | FErL p q => isE op /\ before C (bkt (op_key kf op)) q p
    end.
  Definition ek s C (c : ectx) (x : nat) : Prop := match c with EIns1 => True | EIns2 e => (e < n)%nat /\ (inC C e \/ ~ rtc (nxt s) x e) end.
  Definition pk s C op (c : pctx) : Prop := match c with PEr1 _ => True | PEr2 p q same => before C (bkt (op_key kf op)) q p /\ (same = true -> hit s p (op_key kf op)) end.
  Definition kn s C op (pc : upc) : Prop :=
    let b := bkt (op_key kf op) in
    match pc with
    | UIdle => True
    | UFullCheck | UEmptyCheck | IOcc | ILockB | IOccB | IUnlB _ => isI op
    | FOcc c x | FOff c x | FAdd c x => (x < n)%nat /\ fk s C op c x
    | FVal c x => (x < n)%nat /\ fk s C op c x /\ some_at s x /\ match c with FErB p => x = p -> c_occ s !! p = Some true | _ => True end
    | EOff c x | EAdd c x => isI op /\ (x < n)%nat /\ ek s C c x
    | POff c x prev | PAdd c x prev => isE op /\ prev = x /\ ahead C b x (entry_of c) /\ pk s C op c
    | IConB => isI op /\ c_occ s !! b = Some false
    | ICntB | ISetB => own_value s op b /\ c_occ s !! b = Some false
    | ILockL e => isI op /\ (e < n)%nat
    | IPop e q => isI op /\ (c_off s !! e = Some 0 /\ inC C e) /\ popping q
    | IConL e p => isI op /\ (c_off s !! e = Some 0 /\ inC C e) /\ c_occ s !! p = Some false
    | IOffL e p => own_value s op p /\ (c_off s !! e = Some 0 /\ inC C e) /\ c_occ s !! p = Some false
    | ICntL e p | ISetL e p => own_value s op p /\ (c_off s !! e = Some 0 /\ inC C e) /\ c_occ s !! p = Some false /\ c_off s !! p = Some 0
    | ILinkL e p => own_value s op p /\ (c_off s !! e = Some 0 /\ inC C e) /\ c_occ s !! p = Some true /\ c_off s !! p = Some 0
    | IUnlL e _ => isI op /\ (e < n)%nat
    | XLockB p => isE op /\ p = b
    | XResetB p => isE op /\ p = b /\ c_occ s !! p = Some true /\ hit s p (op_key kf op)
    | XCntB p | XDesB p => isE op /\ p = b /\ some_at s p
    | XUnlB p _ => isE op /\ p = b
    | XLock1 p q | XLock2 p q => isE op /\ before C b q p
    | XBack p => isE op /\ (p < n)%nat
    | XTest p q => isE op /\ before C b q p /\ hit s p (op_key kf op)
    | XAdd1 p q => isE op /\ before C b q p /\ hit s p (op_key kf op) /\ (exists o, c_off s !! p = Some o /\ o <> 0)
    | XAdd2 p q o => isE op /\ before C b q p /\ hit s p (op_key kf op) /\ c_off s !! p = Some o /\ o <> 0
    | XPut p q o => isE op /\ before C b q p /\ hit s p (op_key kf op) /\ exists po qo, c_off s !! p = Some po /\ c_off s !! q = Some qo /\ o = unlink_offset po qo
    | XReset p q => isE op /\ (q < n)%nat /\ c_occ s !! p = Some true /\ hit s p (op_key kf op)
    | XCnt p q | XDes p q => isE op /\ (q < n)%nat /\ c_occ s !! p = Some false /\ some_at s p
    | XPush p q x => isE op /\ (q < n)%nat /\ c_occ s !! p = Some false /\ pushing_of p x /\ written (c_ex s) x
    | XUnl1 p q _ => isE op /\ (p < n)%nat /\ (q < n)%nat
    | XUnl2 q _ => isE op /\ (q < n)%nat
    end.
  Definition thr s C (i : nat) t : Prop :=
    (forall op, op ∈ (c_log t).*1 ++ c_prog t -> isE op -> i = ie) /\
    match c_prog t with [] => c_pc t = UIdle | op :: _ => kn s C op (c_pc t) end.

  (** *** the stored values *)
  Definition sv s (p : nat) : option V := match c_occ s !! p, c_values s !! p with Some true, Some (Some v) => Some v | _, _ => None end.
  Definition stored s : list V := omap (sv s) (seq 0 n).

  Record oinv s ls C F X R : Prop := {
    o_len : length (c_values s) = n /\ length (c_off s) = n /\ length (c_occ s) = n /\ length (c_locks s) = n /\ length C = bc;
    o_perm : (C ≫= (fun l => l)) ++ (ls ≫= handt) ++ F ++ X ≡ₚ seq bc E;
    o_link : forall c, (c < bc)%nat -> linked (c_off s) c (ch C c);
    o_occ : forall x, x ∈ C ≫= (fun l => l) -> c_occ s !! x = Some true;
    o_free : forall x, x ∈ F -> c_occ s !! x = Some false;
    o_val : forall x, c_occ s !! x = Some true -> some_at s x;
    o_off : forall x o, c_off s !! x = Some o -> 0 <= Z.of_nat x + o < Z.of_nat n;
    o_lock : forall x, Z.b2z (SlotProofs.lk (c_locks s) x) = sumZ (fun t => sumZ (SlotProofs.at_ x) (heldt t)) ls;
    o_count : c_count s = Z.of_nat (length (stored s)) + sumZ pendt ls;
    o_vec : inv (T:=Z) (C:=Z) E vm (fun _ => True) (fun w => sumZ w (Z.of_nat <$> F)) (c_ex s) (projt <$> ls);
    o_cons : stored s ++ R ≡ₚ M0 ++ (ls ≫= inst);
    o_rem : Forall2 (fun v k => keq (kf v) k = true) R (erasedL ls);
    o_thr : forall i t, ls !! i = Some t -> thr s C i t
  }.
End one.
