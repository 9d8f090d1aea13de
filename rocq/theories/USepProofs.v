(** Kernels whose keys do not collide (C78): the invariant and its preservation. *)
From Verif Require Import Base Conc SlotModel VectorModel UnorderedModel UnorderedSpec UnorderedProofs UConcModel UConcSpec UConcProofs UEraseModel UEraseSpec UMixSpec UMixShape USepSpec.

Definition b2z (b : bool) : Z := if b then 1 else 0.
Section sep.
  Context {K V : Type} (kf : V -> K) (hash : K -> Z) (keq : K -> K -> bool) (bc E : nat).
  Hypothesis HP : key_equality keq /\ hash_respects keq hash /\ sizes_ok bc E.
  Notation n := (bc + E)%nat.
  Notation bkt := (UnorderedProofs.bkt hash bc).
  Notation bk op := (bkt (op_key kf op)).
  Notation step := (estep kf hash keq bc E).
  Implicit Types (s : cshared V) (t : cthread K V) (ls : list (cthread K V)) (h : list (nat * (cop K V * cret))) (op : cop K V).
  Context (progs : list (list (cop K V))) (s0 : cshared V).

  (** a state without running calls and with a free excess entry *)
  Definition srest s : Prop :=
    (length (c_values s) = n /\ length (c_off s) = n /\ length (c_occ s) = n /\ length (c_locks s) = n) /\
    (forall p, c_locks s !! p <> Some true) /\ (forall p, c_occ s !! p = Some true -> exists v, c_values s !! p = Some (Some v)) /\
    (forall p v, entry s p v -> rtc (leads_to s) (bkt (kf v)) p) /\ c_count s = sumZ b2z (c_occ s) /\
    (exists x, (bc <= x)%nat /\ c_occ s !! x = Some false) /\ clamp_size (Z.of_nat E) (q_c (c_ex s)) <> 0.
  Hypothesis H0 : srest s0.
  Hypothesis Hsep : separate kf hash keq bc s0 progs.

  Definition haskey s (b : nat) (k : K) : Prop := exists v, c_values s !! b = Some (Some v) /\ keq (kf v) k = true.
  Definition erased (b : nat) : Prop := exists l k, makes progs l (CErase k) /\ bkt k = b.
  Definition quiet s (b : nat) : Prop := erased b -> c_occ s !! b = Some false.
  Definition filled s (b : nat) : Prop := ~ erased b /\ c_occ s !! b = Some true.

  Definition pcok s op (b : nat) (pc : upc) : Prop :=
    match op, pc with
    | _, UIdle => True
    | CFind k, FOcc FUser j => j = b
    | CFind k, FVal FUser j => j = b /\ haskey s b k
    | CFind k, FOff FUser j => j = b
    | CInsert v, (UFullCheck | UEmptyCheck) => True
    | CInsert v, FOcc FIns1 j => j = b
    | CInsert v, FVal FIns1 j => j = b /\ haskey s b (kf v)
    | CInsert v, FOff FIns1 j => j = b /\ quiet s b
    | CInsert v, IOcc => quiet s b
    | CInsert v, EOff EIns1 j => j = b /\ filled s b
    | CInsert v, ILockL e => e = b /\ filled s b
    | CInsert v, EOff (EIns2 e) j => e = b /\ j = b /\ filled s b
    | CInsert v, FOcc (FInsL e c) j => e = b /\ c = b /\ j = b /\ filled s b
    | CInsert v, FVal (FInsL e c) j => e = b /\ c = b /\ j = b /\ haskey s b (kf v)
    | CInsert v, IUnlL e None => e = b
    | CInsert v, ILockB => True
    | CInsert v, FOcc FInsB j => j = b
    | CInsert v, FVal FInsB j => j = b /\ haskey s b (kf v)
    | CInsert v, FOff FInsB j => j = b /\ c_occ s !! b = Some false
    | CInsert v, (IOccB | IConB) => c_occ s !! b = Some false
    | CInsert v, (ICntB | ISetB) => c_occ s !! b = Some false /\ c_values s !! b = Some (Some v)
    | CInsert v, IUnlB None => True
    | CInsert v, IUnlB (Some p) => p = b
    | CErase k, FOcc FEr1 j => j = b
    | CErase k, FVal FEr1 j => j = b /\ haskey s b k
    | CErase k, FOff FEr1 j => j = b
    | CErase k, XLockB p => p = b
    | CErase k, FOcc (FErB p) j => p = b /\ j = b
    | CErase k, FVal (FErB p) j => p = b /\ j = b /\ haskey s b k /\ c_occ s !! b = Some true
    | CErase k, FOff (FErB p) j => p = b /\ j = b
    | CErase k, XResetB p => p = b /\ haskey s b k /\ c_occ s !! b = Some true
    | CErase k, XCntB p => p = b /\ haskey s b k /\ c_occ s !! b = Some false
    | CErase k, XDesB p => p = b /\ haskey s b k
    | CErase k, XUnlB p _ => p = b
    | _, _ => False
    end.
  Definition hl (pc : upc) : bool :=
    match pc with
    | FOcc FInsB _ | FVal FInsB _ | FOff FInsB _ | IOccB | IConB | ICntB | ISetB | IUnlB _ | EOff (EIns2 _) _ | FOcc (FInsL _ _) _ | FVal (FInsL _ _) _ | IUnlL _ _
    | FOcc (FErB _) _ | FVal (FErB _) _ | FOff (FErB _) _ | XResetB _ | XCntB _ | XDesB _ | XUnlB _ _ => true
    | _ => false
    end.
  Definition held t : option nat := match c_prog t with op :: _ => if hl (c_pc t) then Some (bk op) else None | [] => None end.
  Definition counting t : Z := match c_pc t with ISetB | XCntB _ => 1 | _ => 0 end.
  Definition pend t : list (cop K V * cret) :=
    match c_prog t with
    | [] => []
    | op :: _ =>
      match c_pc t with
      | FVal FUser p => [(op, RFound (Some p))]
      | FOff FUser _ => [(op, RFound None)]
      | FVal FIns1 _ => [(op, RNotInserted)]
      | FOff FEr1 _ => [(op, RErased false)]
      | IUnlB (Some p) => [(op, RInserted p)]
      | XCntB _ | XDesB _ | XUnlB _ true => [(op, RErased true)]
      | _ => []
      end
    end.
  Definition tok s t : Prop := match c_prog t with [] => c_pc t = UIdle | op :: _ => pcok s op (bk op) (c_pc t) end.

  Record sinv s ls h : Prop := {
    s_len : length (c_values s) = n /\ length (c_off s) = n /\ length (c_occ s) = n /\ length (c_locks s) = n;
    s_off : c_off s = c_off s0;
    s_ex : c_ex s = c_ex s0;
    s_hi : forall p, (bc <= p)%nat -> c_occ s !! p = c_occ s0 !! p;
    s_val : forall p, c_occ s !! p = Some true -> exists v, c_values s !! p = Some (Some v);
    s_key : forall p v k, entry s p v -> key_used kf progs k -> bkt k = p -> keq (kf v) k = true;
    s_pos : forall p v k, entry s p v -> key_used kf progs k -> keq (kf v) k = true -> p = bkt k;
    s_in : forall p v, entry s p v -> rtc (leads_to s0) (bkt (kf v)) p;
    s_prg : forall i t op, ls !! i = Some t -> op ∈ c_prog t -> makes progs i op;
    s_thr : forall i t, ls !! i = Some t -> tok s t;
    s_held : forall i t b, ls !! i = Some t -> held t = Some b -> c_locks s !! b = Some true;
    s_excl : forall i j t t' b, ls !! i = Some t -> ls !! j = Some t' -> held t = Some b -> held t' = Some b -> i = j;
    s_lock : forall b, c_locks s !! b = Some true -> exists i t, ls !! i = Some t /\ held t = Some b;
    s_cnt : c_count s = sumZ b2z (c_occ s) + sumZ counting ls;
    s_run : set_calls kf keq (content_of s0) h (content_of s);
    s_idx : forall x, x ∈ h -> (x.1 < length ls)%nat;
    s_log : forall i t, ls !! i = Some t -> calls_of i h = c_log t ++ pend t
  }.

  (** *** facts *)
  Lemma bk_bucket k : bucket_of hash bc k = Some (bkt k).
  Proof using HP. exact (mx_bucket hash keq bc E HP k). Qed.
  Lemma bk_lt k : (bkt k < bc)%nat.
  Proof using HP. exact (mx_bkt hash keq bc E HP k). Qed.
  Lemma bk_keq k1 k2 : keq k1 k2 = true -> bkt k1 = bkt k2.
  Proof using HP. exact (mx_keq hash keq bc E HP k1 k2). Qed.
  Lemma one_key k1 k2 : key_used kf progs k1 -> key_used kf progs k2 -> bkt k1 = bkt k2 -> keq k1 k2 = true.
  Proof using HP Hsep. intros U1 U2 Hb. destruct Hsep as (_ & S2 & _). apply S2; [exact U1|exact U2|]. rewrite !bk_bucket, Hb. reflexivity. Qed.
  Lemma makes_key i op : makes progs i op -> key_used kf progs (op_key kf op).
  Proof. intros H. exists i, op. auto. Qed.
  Lemma off_zero k : key_used kf progs k -> c_off s0 !! bkt k = Some 0.
  Proof using HP Hsep. intros U. destruct Hsep as (S1 & _). apply (S1 k (bkt k) U (bk_bucket k)). Qed.
  Lemma content_entry s p v : content_of s p = Some v <-> entry s p v.
  Proof.
    unfold content_of, entry. split.
    - intros H. destruct (c_occ s !! p) as [[]|]; try discriminate. destruct (c_values s !! p) as [[w|]|]; try discriminate. injection H as ->. auto.
    - intros [-> ->]. reflexivity.
  Qed.
  Lemma haskey_occ s ls h k : sinv s ls h -> key_used kf progs k -> c_occ s !! bkt k = Some true -> haskey s (bkt k) k.
  Proof. intros I U Ho. destruct (s_val _ _ _ I _ Ho) as [v Hv]. exists v. split; [exact Hv|]. eapply (s_key _ _ _ I); [split; eassumption|exact U|reflexivity]. Qed.
  Lemma present s ls h k : sinv s ls h -> key_used kf progs k -> c_occ s !! bkt k = Some true -> exists v, content_of s (bkt k) = Some v /\ keq (kf v) k = true.
  Proof. intros I U Ho. destruct (haskey_occ s ls h k I U Ho) as (v & Hv & Hk). exists v. split; [|exact Hk]. apply content_entry. split; assumption. Qed.
  Lemma absent s ls h k : sinv s ls h -> key_used kf progs k -> c_occ s !! bkt k = Some false -> ~ has_key kf keq (content_of s) k.
  Proof. intros I U Ho (p & v & Hp & Hk). apply content_entry in Hp. pose proof (s_pos _ _ _ I _ _ _ Hp U Hk) as ->. destruct Hp as [_ Hp]. congruence. Qed.
  Lemma same_refl (M : nat -> option V) : same M M.
  Proof. intros p. reflexivity. Qed.
  Lemma set_calls_snoc M h i x M1 M2 : set_calls kf keq M h M1 -> set_call kf keq M1 x M2 -> set_calls kf keq M (h ++ [(i, x)]) M2.
  Proof.
    revert M. induction h as [|[j y] h IH]; intros M; cbn [set_calls app].
    - intros Hs Hc. exists M2. split; [|apply same_refl].
      assert (Hk : forall k, has_key kf keq M1 k <-> has_key kf keq M k) by (intros k; split; intros (p & v & Hp & Hk); exists p, v; [rewrite <- (Hs p)|rewrite (Hs p)]; auto).
      assert (Hc1 : forall p o, changes M1 M2 p o -> changes M M2 p o) by (intros p o Hc1 q; rewrite (Hc1 q); case_decide; auto).
      assert (Hs1 : same M1 M2 -> same M M2) by (intros Hs1 p; rewrite (Hs1 p); auto).
      destruct x as [[v|k|k] [p| |[]|[p|]]]; cbn in *; try contradiction.
      + rewrite <- Hk, <- (Hs p). destruct Hc as (? & ? & ?). auto.
      + rewrite <- Hk. destruct Hc. auto.
      + destruct Hc as (p & v & H1 & H2 & H3). exists p, v. rewrite <- (Hs p). auto.
      + rewrite <- Hk. destruct Hc. auto.
      + destruct Hc as ((v & H1 & H2) & H3). split; [|auto]. exists v. rewrite <- (Hs p). auto.
      + rewrite <- Hk. destruct Hc. auto.
    - intros (M3 & H1 & H2) Hc. exists M3. split; [exact H1|]. apply IH; assumption.
  Qed.
  Lemma set_calls_ext M h M1 M2 : set_calls kf keq M h M1 -> same M1 M2 -> set_calls kf keq M h M2.
  Proof.
    revert M. induction h as [|[j y] h IH]; intros M; cbn [set_calls].
    - intros A B p. rewrite (B p). apply A.
    - intros (M3 & A & B) C. exists M3. split; [exact A|]. apply IH; assumption.
  Qed.
  Lemma calls_of_snoc i j h x : calls_of i (h ++ [(j, x)]) = calls_of (K:=K) (V:=V) i h ++ (if decide (j = i) then [x] else []).
  Proof. unfold calls_of. rewrite filter_app, fmap_app. f_equal. rewrite filter_cons. cbn. destruct (decide (j = i)); reflexivity. Qed.
  Lemma pcok_ext s s' op b pc : c_values s' = c_values s -> c_occ s' = c_occ s -> pcok s op b pc -> pcok s' op b pc.
  Proof. intros E1 E2. unfold pcok, haskey, quiet, filled. rewrite E1, E2. auto. Qed.
  Lemma tok_ext s s' t : c_values s' = c_values s -> c_occ s' = c_occ s -> tok s t -> tok s' t.
  Proof. intros E1 E2. unfold tok. destruct (c_prog t); [auto|]. apply pcok_ext; assumption. Qed.

  Lemma held_prog t b : held t = Some b -> exists op rest, c_prog t = op :: rest /\ b = bk op /\ hl (c_pc t) = true.
  Proof. unfold held. destruct (c_prog t) as [|op rest]; [discriminate|]. destruct (hl (c_pc t)) eqn:Eh; [|discriminate]. intros [= <-]. eauto. Qed.

  (** *** steps that change neither a value nor an occupied flag *)
  Lemma step_plain s ls h i t op rest s' t' evl : sinv s ls h -> ls !! i = Some t -> c_prog t = op :: rest ->
    c_values s' = c_values s -> c_occ s' = c_occ s -> c_off s' = c_off s -> c_ex s' = c_ex s ->
    c_count s' = c_count s - counting t + counting t' ->
    ((c_locks s' = c_locks s /\ held t' = held t) \/
     (c_locks s !! bk op = Some false /\ c_locks s' = <[bk op := true]> (c_locks s) /\ held t' = Some (bk op)) \/
     (held t = Some (bk op) /\ c_locks s' = <[bk op := false]> (c_locks s) /\ held t' = None)) ->
    (c_prog t' = c_prog t \/ c_prog t' = rest /\ c_pc t' = UIdle) -> tok s t' ->
    c_log t' ++ pend t' = c_log t ++ pend t ++ evl -> match evl with [] => True | [x] => set_call kf keq (content_of s) x (content_of s) | _ => False end ->
    sinv s' (<[i := t']> ls) (h ++ ((fun x => (i, x)) <$> evl)).
  Proof.
    intros I Hi Ep Ev Eo Ef Ex Ec HL Hpr Htk Elog Hev. pose proof (lookup_lt_Some _ _ _ Hi) as Hlt. destruct (s_len _ _ _ I) as (L1 & L2 & L3 & L4).
    assert (Hself : forall j tj, <[i := t']> ls !! j = Some tj -> (j = i /\ tj = t') \/ (j <> i /\ ls !! j = Some tj)).
    { intros j tj Hj. destruct (decide (j = i)) as [-> |Hne]; [rewrite list_lookup_insert in Hj by exact Hlt; injection Hj as <-; auto|rewrite list_lookup_insert_ne in Hj by congruence; auto]. }
    assert (Hheld : forall b', held t = Some b' -> b' = bk op) by (intros b' Hb'; unfold held in Hb'; rewrite Ep in Hb'; destruct (hl (c_pc t)); congruence).
    assert (Hbl : (bk op < length (c_locks s))%nat) by (pose proof (bk_lt (op_key kf op)); lia).
    assert (Hll : length (c_locks s') = n) by (destruct HL as [[-> _]|[(_ & -> & _)|(_ & -> & _)]]; rewrite ?insert_length; exact L4).
    assert (Hsame : content_of s' = content_of s) by (unfold content_of; rewrite Ev, Eo; reflexivity).
    split.
    - rewrite Ev, Ef, Eo. auto.
    - rewrite Ef. apply (s_off _ _ _ I).
    - rewrite Ex. apply (s_ex _ _ _ I).
    - rewrite Eo. apply (s_hi _ _ _ I).
    - rewrite Eo, Ev. apply (s_val _ _ _ I).
    - intros p v k. unfold entry. rewrite Eo, Ev. apply (s_key _ _ _ I).
    - intros p v k. unfold entry. rewrite Eo, Ev. apply (s_pos _ _ _ I).
    - intros p v. unfold entry. rewrite Eo, Ev. apply (s_in _ _ _ I).
    - intros j tj o Hj Ho. apply Hself in Hj as [[-> ->]|[_ Hj]]; [|eapply (s_prg _ _ _ I); eassumption].
      eapply (s_prg _ _ _ I); [exact Hi|]. destruct Hpr as [<-|[E1 _]]; [exact Ho|]. rewrite Ep. right. congruence.
    - intros j tj Hj. eapply tok_ext; [eassumption|eassumption|]. apply Hself in Hj as [[-> ->]|[_ Hj]]; [exact Htk|exact (s_thr _ _ _ I _ _ Hj)].
    - intros j tj b' Hj Hb'. apply Hself in Hj as [[-> ->]|[Hne Hj]].
      + destruct HL as [[-> Hh]|[(_ & -> & Hh)|(_ & _ & Hh)]]; [rewrite Hh in Hb'; eapply (s_held _ _ _ I); eassumption| |congruence].
        assert (b' = bk op) as -> by congruence. apply list_lookup_insert. exact Hbl.
      + pose proof (s_held _ _ _ I _ _ _ Hj Hb') as Hlk. destruct HL as [[-> _]|[(_ & -> & _)|(Hh & -> & _)]]; [exact Hlk| |].
        * destruct (decide (b' = bk op)) as [-> |Hd]; [apply list_lookup_insert; exact Hbl|rewrite list_lookup_insert_ne by congruence; exact Hlk].
        * rewrite list_lookup_insert_ne; [exact Hlk|]. intros <-. exact (Hne (s_excl _ _ _ I _ _ _ _ _ Hj Hi Hb' Hh)).
    - intros j1 j2 t1 t2 b' Hj1 Hj2 Hh1 Hh2. apply Hself in Hj1 as [[-> ->]|[Hne1 Hj1]], Hj2 as [[-> ->]|[Hne2 Hj2]]; [reflexivity| | |eapply (s_excl _ _ _ I); eassumption].
      + exfalso. pose proof (s_held _ _ _ I _ _ _ Hj2 Hh2) as Hlk. destruct HL as [[_ Hh]|[(Hf & _ & Hh)|(_ & _ & Hh)]]; [|congruence|congruence].
        rewrite Hh in Hh1. exact (Hne2 (s_excl _ _ _ I _ _ _ _ _ Hj2 Hi Hh2 Hh1)).
      + exfalso. pose proof (s_held _ _ _ I _ _ _ Hj1 Hh1) as Hlk. destruct HL as [[_ Hh]|[(Hf & _ & Hh)|(_ & _ & Hh)]]; [|congruence|congruence].
        rewrite Hh in Hh2. exact (Hne1 (s_excl _ _ _ I _ _ _ _ _ Hj1 Hi Hh1 Hh2)).
    - intros b' Hb'.
      assert (Hold : c_locks s !! b' = Some true -> (held t = Some b' -> held t' = Some b') -> exists j tj, <[i := t']> ls !! j = Some tj /\ held tj = Some b').
      { intros Hlk Hk. destruct (s_lock _ _ _ I _ Hlk) as (j & tj & Hj & Hh). destruct (decide (j = i)) as [-> |Hne]; [exists i, t'; rewrite list_lookup_insert by exact Hlt; split; [reflexivity|]; apply Hk; congruence|exists j, tj; rewrite list_lookup_insert_ne by congruence; auto]. }
      destruct HL as [[E1 Hh]|[(Hf & E1 & Hh)|(Hh & E1 & Hh')]]; rewrite E1 in Hb'.
      + apply Hold; [exact Hb'|congruence].
      + destruct (decide (b' = bk op)) as [-> |Hd]; [exists i, t'; rewrite list_lookup_insert by exact Hlt; auto|]. rewrite list_lookup_insert_ne in Hb' by congruence. apply Hold; [exact Hb'|]. intros Hx. apply Hheld in Hx. congruence.
      + destruct (decide (b' = bk op)) as [-> |Hd]; [rewrite list_lookup_insert in Hb' by exact Hbl; discriminate|]. rewrite list_lookup_insert_ne in Hb' by congruence. apply Hold; [exact Hb'|]. intros Hx. apply Hheld in Hx. congruence.
    - rewrite Ec, Eo, (s_cnt _ _ _ I), (sumZ_insert _ _ _ _ _ Hi). lia.
    - rewrite Hsame. destruct evl as [|x [|]]; [cbn; rewrite app_nil_r; apply (s_run _ _ _ I)| |contradiction]. eapply set_calls_snoc; [apply (s_run _ _ _ I)|exact Hev].
    - intros x Hx. rewrite insert_length. apply elem_of_app in Hx as [Hx|Hx]; [exact (s_idx _ _ _ I _ Hx)|]. apply elem_of_list_fmap in Hx as (y & -> & _). exact Hlt.
    - intros j tj Hj. assert (Ecl : calls_of j (h ++ ((fun x => (i, x)) <$> evl)) = calls_of j h ++ (if decide (i = j) then evl else [])).
      { destruct evl as [|x [|]]; [cbn; rewrite app_nil_r; case_decide; rewrite app_nil_r; reflexivity| |contradiction]. cbn. rewrite calls_of_snoc. case_decide; reflexivity. }
      rewrite Ecl. apply Hself in Hj as [[-> ->]|[Hne Hj]]; [rewrite decide_True by reflexivity; rewrite (s_log _ _ _ I _ _ Hi), Elog, <- app_assoc; reflexivity|].
      rewrite decide_False by congruence. rewrite app_nil_r. exact (s_log _ _ _ I _ _ Hj).
  Qed.
  (** *** the three steps that change an entry: all under the lock of its bucket *)
  Lemma other_bucket s ls h i t op j tj opj rj : sinv s ls h -> ls !! i = Some t -> held t = Some (bk op) -> ls !! j = Some tj -> j <> i -> c_prog tj = opj :: rj -> hl (c_pc tj) = true -> bk opj <> bk op.
  Proof. intros I Hi Hh Hj Hne Ej Hhl Hb. apply Hne. refine (s_excl _ _ _ I _ _ _ _ (bk op) Hj Hi _ Hh). unfold held. rewrite Ej, Hhl, Hb. reflexivity. Qed.

  Ltac elem_cases Hlt := let H := fresh in intros j tj H; match type of H with <[?i := ?t']> ?ls !! j = Some tj => destruct (decide (j = i)) as [-> |Hne]; [rewrite list_lookup_insert in H by exact Hlt; injection H as <-; left; auto|rewrite list_lookup_insert_ne in H by congruence; right; auto] end.

  Lemma step_entry s ls h i t op rest s' pc ev : sinv s ls h -> ls !! i = Some t -> c_prog t = op :: rest -> held t = Some (bk op) -> hl pc = true ->
    length (c_values s') = n -> length (c_occ s') = n -> c_off s' = c_off s -> c_ex s' = c_ex s -> c_locks s' = c_locks s ->
    (forall p, p <> bk op -> c_values s' !! p = c_values s !! p /\ c_occ s' !! p = c_occ s !! p) ->
    (c_occ s' !! bk op = Some true -> exists v, c_values s' !! bk op = Some (Some v) /\ keq (kf v) (op_key kf op) = true) ->
    (forall j tj opj rj, ls !! j = Some tj -> j <> i -> c_prog tj = opj :: rj -> bk opj = bk op -> pcok s' opj (bk opj) (c_pc tj)) ->
    c_count s' = c_count s -> sumZ b2z (c_occ s') + counting (cgo t pc) = sumZ b2z (c_occ s) + counting t ->
    pcok s' op (bk op) pc -> pend t = [] -> pend (cgo t pc) = ev -> match ev with [] => same (content_of s) (content_of s') | [x] => set_call kf keq (content_of s) x (content_of s') | _ => False end ->
    sinv s' (<[i := cgo t pc]> ls) (h ++ ((fun x => (i, x)) <$> ev)).
  Proof.
    intros I Hi Ep Hh Hhl Lv Lo Ef Ex El Hfr Hocc Hoth Ec Esum Hpc Hp0 Hp1 Hev. pose proof (lookup_lt_Some _ _ _ Hi) as Hlt. destruct (s_len _ _ _ I) as (L1 & L2 & L3 & L4).
    assert (U : key_used kf progs (op_key kf op)) by (eapply makes_key, (s_prg _ _ _ I _ _ _ Hi); rewrite Ep; left).
    assert (Hself : forall j tj, <[i := cgo t pc]> ls !! j = Some tj -> (j = i /\ tj = cgo t pc) \/ (j <> i /\ ls !! j = Some tj)) by elem_cases Hlt.
    assert (Hheld : held (cgo t pc) = held t) by (rewrite Hh; unfold held; cbn [cgo c_prog c_pc]; rewrite Ep, Hhl; reflexivity).
    assert (Hent : forall p v, entry s' p v -> p <> bk op -> entry s p v) by (intros p v [A B] Hne; destruct (Hfr p Hne) as [E1 E2]; split; congruence).
    assert (Hval : forall v, entry s' (bk op) v -> keq (kf v) (op_key kf op) = true) by (intros v [A B]; destruct (Hocc B) as (w & Hw & Hk); congruence).
    split.
    - rewrite Ef, El. auto.
    - rewrite Ef. apply (s_off _ _ _ I).
    - rewrite Ex. apply (s_ex _ _ _ I).
    - intros p Hp. rewrite (proj2 (Hfr p ltac:(pose proof (bk_lt (op_key kf op)); lia))). apply (s_hi _ _ _ I). exact Hp.
    - intros p Hp. destruct (decide (p = bk op)) as [-> |Hne]; [destruct (Hocc Hp) as (v & Hv & _); eauto|]. destruct (Hfr p Hne) as [E1 E2]. rewrite E1. apply (s_val _ _ _ I). congruence.
    - intros p v k He Uk Hb. destruct (decide (p = bk op)) as [Ed|Hne]; [|exact (s_key _ _ _ I _ _ _ (Hent p v He Hne) Uk Hb)].
      rewrite Ed in He, Hb. destruct HP as ((_ & _ & K3) & _). eapply K3; [apply Hval; exact He|]. apply one_key; [exact U|exact Uk|congruence].
    - intros p v k He Uk Hk. destruct (decide (p = bk op)) as [Ed|Hne]; [|exact (s_pos _ _ _ I _ _ _ (Hent p v He Hne) Uk Hk)].
      rewrite Ed in *. transitivity (bkt (kf v)); [symmetry; apply bk_keq, Hval, He|apply bk_keq, Hk].
    - intros p v He. destruct (decide (p = bk op)) as [Ed|Hne]; [|exact (s_in _ _ _ I _ _ (Hent p v He Hne))]. rewrite Ed in *. rewrite (bk_keq _ _ (Hval v He)). apply rtc_refl.
    - intros j tj o Hj Ho. apply Hself in Hj as [[-> ->]|[_ Hj]]; [eapply (s_prg _ _ _ I); [exact Hi|exact Ho]|eapply (s_prg _ _ _ I); eassumption].
    - intros j tj Hj. apply Hself in Hj as [[-> ->]|[Hne Hj]]; [unfold tok; cbn [cgo c_prog c_pc]; rewrite Ep; exact Hpc|].
      pose proof (s_thr _ _ _ I _ _ Hj) as Htk. unfold tok in *. destruct (c_prog tj) as [|opj rj] eqn:Ej; [exact Htk|]. destruct (decide (bk opj = bk op)) as [Eb|Hb]; [exact (Hoth j tj opj rj Hj Hne Ej Eb)|].
      destruct (Hfr _ Hb) as [E1 E2]. unfold pcok, haskey, quiet, filled in *. rewrite E1, E2. exact Htk.
    - intros j tj b Hj Hb. rewrite El. apply Hself in Hj as [[-> ->]|[Hne Hj]]; [rewrite Hheld in Hb; eapply (s_held _ _ _ I); eassumption|eapply (s_held _ _ _ I); eassumption].
    - intros j1 j2 t1 t2 b Hj1 Hj2 Hb1 Hb2. apply Hself in Hj1 as [[-> ->]|[Hne1 Hj1]], Hj2 as [[-> ->]|[Hne2 Hj2]]; rewrite ?Hheld in *; [reflexivity|eapply (s_excl _ _ _ I); eassumption|eapply (s_excl _ _ _ I); eassumption|eapply (s_excl _ _ _ I); eassumption].
    - intros b Hb. rewrite El in Hb. destruct (s_lock _ _ _ I _ Hb) as (j & tj & Hj & Hbj). destruct (decide (j = i)) as [-> |Hne].
      + exists i, (cgo t pc). rewrite list_lookup_insert by exact Hlt. split; [reflexivity|]. rewrite Hheld. congruence.
      + exists j, tj. rewrite list_lookup_insert_ne by congruence. auto.
    - rewrite Ec, (s_cnt _ _ _ I), (sumZ_insert _ _ _ _ _ Hi). lia.
    - destruct ev as [|x [|]]; [cbn; rewrite app_nil_r; eapply set_calls_ext; [apply (s_run _ _ _ I)|exact Hev]| |contradiction]. eapply set_calls_snoc; [apply (s_run _ _ _ I)|exact Hev].
    - intros x Hx. rewrite insert_length. apply elem_of_app in Hx as [Hx|Hx]; [exact (s_idx _ _ _ I _ Hx)|]. apply elem_of_list_fmap in Hx as (y & -> & _). exact Hlt.
    - intros j tj Hj. assert (Ecl : calls_of j (h ++ ((fun x => (i, x)) <$> ev)) = calls_of j h ++ (if decide (i = j) then ev else [])).
      { destruct ev as [|x [|]]; [cbn; rewrite app_nil_r; case_decide; rewrite app_nil_r; reflexivity| |contradiction]. cbn. rewrite calls_of_snoc. case_decide; reflexivity. }
      rewrite Ecl. apply Hself in Hj as [[-> ->]|[Hne Hj]]; [rewrite decide_True by reflexivity; rewrite (s_log _ _ _ I _ _ Hi), Hp0, Hp1, app_nil_r; reflexivity|].
      rewrite decide_False by congruence. rewrite app_nil_r. exact (s_log _ _ _ I _ _ Hj).
  Qed.
  Lemma pcok_free s s' op b pc : pcok s op b pc -> hl pc = false -> (haskey s b (op_key kf op) -> haskey s' b (op_key kf op)) ->
    (forall v, op = CInsert v -> quiet s b -> quiet s' b) -> (filled s b -> filled s' b) -> pcok s' op b pc.
  Proof.
    intros H Hl A B C. destruct op as [v|k|k]; cbn [op_key] in A; [specialize (B v eq_refl)|clear B|clear B]; destruct pc as [| | |c j|c j|c j|c j|c j|c j|c j p|c j p| | | | | | |r|e|e q|e p|e p|e p|e p|e p|e r|p|p|p|p|p ok|p q|p q|p|p q|p q|p q o|p q o|p q|p q|p q|p q x|p q ok|q ok];
      try (destruct c); try (destruct r); cbn [hl] in Hl; try discriminate Hl; cbn [pcok] in H |- *; tauto.
  Qed.
  Lemma sum_put (l : list bool) p b b' : l !! p = Some b -> sumZ b2z (<[p := b']> l) = sumZ b2z l - b2z b + b2z b'.
  Proof. intros H. apply sumZ_insert. exact H. Qed.

  (** 733: the value is constructed *)
  Lemma step_con s ls h i t v rest : sinv s ls h -> ls !! i = Some t -> c_prog t = CInsert v :: rest -> c_pc t = IConB ->
    sinv (put_value s (bkt (kf v)) (Some v)) (<[i := cgo t ICntB]> ls) h.
  Proof.
    intros I Hi Ep Epc. destruct (s_len _ _ _ I) as (L1 & L2 & L3 & L4). pose proof (bk_lt (kf v)) as Hlt. pose proof (s_thr _ _ _ I _ _ Hi) as Htk. unfold tok in Htk. rewrite Ep, Epc in Htk. cbn in Htk.
    assert (Hh : held t = Some (bk (CInsert v : cop K V))) by (unfold held; rewrite Ep, Epc; reflexivity).
    assert (U : key_used kf progs (kf v)) by (eapply (makes_key _ (CInsert v)), (s_prg _ _ _ I _ _ _ Hi); rewrite Ep; left).
    assert (Hput : <[bkt (kf v) := Some v]> (c_values s) !! bkt (kf v) = Some (Some v)) by (apply list_lookup_insert; lia).
    replace h with (h ++ ((fun x : cop K V * cret => (i, x)) <$> [])) by apply app_nil_r.
    refine (step_entry s ls h i t (CInsert v) rest (put_value s (bkt (kf v)) (Some v)) ICntB [] I Hi Ep Hh eq_refl _ L3 eq_refl eq_refl eq_refl _ _ _ eq_refl _ _ _ _ _); cbn [put_value c_values c_occ op_key].
    - rewrite insert_length. exact L1.
    - intros p Hne. rewrite list_lookup_insert_ne by congruence. auto.
    - intros Ho. congruence.
    - intros j tj opj rj Hj Hne Ej Eb. pose proof (s_thr _ _ _ I _ _ Hj) as Htj. unfold tok in Htj. rewrite Ej in Htj.
      assert (Hnl : hl (c_pc tj) = true -> False) by (intros Hl; exact (other_bucket s ls h i t (CInsert v) j tj opj rj I Hi Hh Hj Hne Ej Hl Eb)).
      assert (Uj : key_used kf progs (op_key kf opj)) by (eapply makes_key, (s_prg _ _ _ I _ _ _ Hj); rewrite Ej; left).
      assert (Hk : keq (kf v) (op_key kf opj) = true) by (apply one_key; [exact U|exact Uj|symmetry; exact Eb]).
      assert (Hk' : haskey (put_value s (bkt (kf v)) (Some v)) (bk opj) (op_key kf opj)) by (exists v; cbn [put_value c_values]; rewrite Eb; cbn [op_key]; auto).
      eapply pcok_free; [exact Htj|destruct (hl (c_pc tj)); [destruct (Hnl eq_refl)|reflexivity]|intros _; exact Hk'| |]; unfold quiet, filled; cbn [put_value c_occ]; auto.
    - unfold counting. cbn. rewrite Epc. lia.
    - cbn. split; [exact Htk|exact Hput].
    - unfold pend. rewrite Ep, Epc. reflexivity.
    - unfold pend. cbn. rewrite Ep. reflexivity.
    - intros p. unfold content_of. cbn [put_value c_occ c_values]. destruct (decide (p = bkt (kf v))) as [-> |Hne]; [rewrite Htk; reflexivity|]. rewrite list_lookup_insert_ne by congruence. reflexivity.
  Qed.
  Lemma inserter s ls h i t v rest j tj w rj : sinv s ls h -> ls !! i = Some t -> c_prog t = CInsert v :: rest -> ls !! j = Some tj -> c_prog tj = CInsert w :: rj -> bkt (kf w) = bkt (kf v) -> erased (bkt (kf v)) -> j = i.
  Proof.
    intros I Hi Ep Hj Ej Eb (l & k & Hl & Ek). destruct Hsep as (_ & _ & S3).
    assert (Mi : makes progs i (CInsert v)) by (eapply (s_prg _ _ _ I); [exact Hi|rewrite Ep; left]). assert (Mj : makes progs j (CInsert w)) by (eapply (s_prg _ _ _ I); [exact Hj|rewrite Ej; left]).
    eapply S3; [exact Mj|exact Mi|exact Hl| |]; apply one_key; try (first [exact (makes_key _ _ Mj)|exact (makes_key _ _ Mi)|exact (makes_key _ _ Hl)]); congruence.
  Qed.
  (** 739: the entry is marked as occupied; here the insert takes effect *)
  Lemma step_set s ls h i t v rest : sinv s ls h -> ls !! i = Some t -> c_prog t = CInsert v :: rest -> c_pc t = ISetB ->
    sinv (put_occ s (bkt (kf v)) true) (<[i := cgo t (IUnlB (Some (bkt (kf v))))]> ls) (h ++ [(i, (CInsert v, RInserted (bkt (kf v))))]).
  Proof.
    intros I Hi Ep Epc. destruct (s_len _ _ _ I) as (L1 & L2 & L3 & L4). pose proof (bk_lt (kf v)) as Hlt. pose proof (s_thr _ _ _ I _ _ Hi) as Htk. unfold tok in Htk. rewrite Ep, Epc in Htk. cbn in Htk. destruct Htk as [Ho Hv].
    assert (Hh : held t = Some (bk (CInsert v : cop K V))) by (unfold held; rewrite Ep, Epc; reflexivity).
    assert (U : key_used kf progs (kf v)) by (eapply (makes_key _ (CInsert v)), (s_prg _ _ _ I _ _ _ Hi); rewrite Ep; left).
    assert (Hput : <[bkt (kf v) := true]> (c_occ s) !! bkt (kf v) = Some true) by (apply list_lookup_insert; lia).
    refine (step_entry s ls h i t (CInsert v) rest (put_occ s (bkt (kf v)) true) (IUnlB (Some (bkt (kf v)))) [(CInsert v, RInserted (bkt (kf v)))] I Hi Ep Hh eq_refl L1 _ eq_refl eq_refl eq_refl _ _ _ eq_refl _ _ _ _ _); cbn [put_occ c_values c_occ op_key].
    - rewrite insert_length. exact L3.
    - intros p Hne. rewrite list_lookup_insert_ne by congruence. auto.
    - intros _. exists v. split; [exact Hv|]. destruct HP as ((K1 & _) & _). apply K1.
    - intros j tj opj rj Hj Hne Ej Eb. pose proof (s_thr _ _ _ I _ _ Hj) as Htj. unfold tok in Htj. rewrite Ej in Htj.
      assert (Hnl : hl (c_pc tj) = true -> False) by (intros Hl; exact (other_bucket s ls h i t (CInsert v) j tj opj rj I Hi Hh Hj Hne Ej Hl Eb)).
      eapply pcok_free; [exact Htj|destruct (hl (c_pc tj)); [destruct (Hnl eq_refl)|reflexivity]|unfold haskey; cbn [put_occ c_values]; auto| |].
      + intros w -> _ Her. exfalso. apply Hne. refine (inserter s ls h i t v rest j tj w rj I Hi Ep Hj Ej Eb _). cbn [op_key] in Eb, Her. rewrite <- Eb. exact Her.
      + intros [F1 F2]. cbn [op_key] in Eb, F2. rewrite Eb in F2. congruence.
    - rewrite (sum_put _ _ _ true Ho). unfold counting. cbn. rewrite Epc. lia.
    - reflexivity.
    - unfold pend. rewrite Ep, Epc. reflexivity.
    - unfold pend. cbn. rewrite Ep. reflexivity.
    - cbn. split; [exact (absent s ls h (kf v) I U Ho)|]. split; [unfold content_of; rewrite Ho; reflexivity|].
      intros q. unfold content_of. cbn [put_occ c_occ c_values]. case_decide as Hd; [subst q; rewrite Hput, Hv; reflexivity|]. rewrite list_lookup_insert_ne by congruence. reflexivity.
  Qed.
  (** 838: the entry is marked as free; here the erase takes effect *)
  Lemma step_reset s ls h i t k rest : sinv s ls h -> ls !! i = Some t -> c_prog t = CErase k :: rest -> c_pc t = XResetB (bkt k) ->
    sinv (put_occ s (bkt k) false) (<[i := cgo t (XCntB (bkt k))]> ls) (h ++ [(i, (CErase k, RErased true))]).
  Proof.
    intros I Hi Ep Epc. destruct (s_len _ _ _ I) as (L1 & L2 & L3 & L4). pose proof (bk_lt k) as Hlt. pose proof (s_thr _ _ _ I _ _ Hi) as Htk. unfold tok in Htk. rewrite Ep, Epc in Htk. cbn in Htk. destruct Htk as (_ & Hk & Ho).
    assert (Hh : held t = Some (bk (CErase k : cop K V))) by (unfold held; rewrite Ep, Epc; reflexivity).
    assert (Mi : makes progs i (CErase k)) by (eapply (s_prg _ _ _ I); [exact Hi|rewrite Ep; left]).
    assert (Hput : <[bkt k := false]> (c_occ s) !! bkt k = Some false) by (apply list_lookup_insert; lia).
    refine (step_entry s ls h i t (CErase k) rest (put_occ s (bkt k) false) (XCntB (bkt k)) [(CErase k, RErased true)] I Hi Ep Hh eq_refl L1 _ eq_refl eq_refl eq_refl _ _ _ eq_refl _ _ _ _ _); cbn [put_occ c_values c_occ op_key].
    - rewrite insert_length. exact L3.
    - intros p Hne. rewrite list_lookup_insert_ne by congruence. auto.
    - intros Ho'. congruence.
    - intros j tj opj rj Hj Hne Ej Eb. pose proof (s_thr _ _ _ I _ _ Hj) as Htj. unfold tok in Htj. rewrite Ej in Htj.
      assert (Hnl : hl (c_pc tj) = true -> False) by (intros Hl; exact (other_bucket s ls h i t (CErase k) j tj opj rj I Hi Hh Hj Hne Ej Hl Eb)).
      assert (Her : erased (bk opj)) by (exists i, k; split; [exact Mi|symmetry; exact Eb]).
      eapply pcok_free; [exact Htj|destruct (hl (c_pc tj)); [destruct (Hnl eq_refl)|reflexivity]|unfold haskey; cbn [put_occ c_values]; auto| |].
      + intros w _ _ _. cbn [put_occ c_occ]. rewrite Eb. exact Hput.
      + intros [F1 F2]. contradiction.
    - rewrite (sum_put _ _ _ false Ho). unfold counting. cbn. rewrite Epc. lia.
    - cbn. split; [reflexivity|]. split; [exact Hk|exact Hput].
    - unfold pend. rewrite Ep, Epc. reflexivity.
    - unfold pend. cbn. rewrite Ep. reflexivity.
    - destruct Hk as (v & Hv & Hk). cbn. exists (bkt k), v. split; [unfold content_of; rewrite Ho, Hv; reflexivity|]. split; [exact Hk|].
      intros q. unfold content_of. cbn [put_occ c_occ c_values]. case_decide as Hd; [subst q; rewrite Hput; reflexivity|]. rewrite list_lookup_insert_ne by congruence. reflexivity.
  Qed.
End sep.
