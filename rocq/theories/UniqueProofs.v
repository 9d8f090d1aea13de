(** Proofs about device_unique_object. *)
From Verif Require Import Base BitModel VectorModel UnorderedModel MemoryModel MemorySpec MemoryProofs MemoryArrayProofs MemoryFinalProofs.
From Verif Require Import ContainerMemModel ContainerMemSpec ContainerMemProofs ContainerMemFinal UniqueModel UniqueSpec.

Section unique_proofs.
  Context (malloc : nat -> list (Z * Z) -> Z -> Z) (Hm : malloc_ok malloc) (Hnf : never_fails malloc).
  Context (dc : bool) (ord : nat -> list nat) (Hord : forall n, ord n ≡ₚ seq 0 n).

  Definition hb (c : bool -> option (Z -> Z)) (ks : list kind) (p : option (nat * object)) : list tblock :=
    match p with Some (id, o) => match ks !! id with Some k => pblocks c (pointers o) (parts k) | None => [] end | None => [] end.
  Definition hbl c ks (vs : list uvar) : list tblock := mjoin ((fun v => hb c ks (held v)) <$> vs).
  Definition hok (ks : list kind) (p : option (nat * object)) : Prop :=
    match p with Some (id, o) => exists k, ks !! id = Some k /\ kind_ok k /\ of_kind k o /\ good (pointers o) (parts k) | None => True end.
  Record uinv (ks : list kind) (sc : list bool) (no : nat * list (option nat)) (st : uprog) : Prop := {
    ui_tr : tracks (up_mem st) (hbl none_c ks (up_vars st));
    ui_ok : forall v, v ∈ up_vars st -> hok ks (held v);
    ui_cr : up_created st = length ks;
    ui_nv : no.1 = length (up_vars st);
    ui_ow : length no.2 = length ks;
    ui_sc : sc = (fun v => match v with Ended => false | Holds _ => true end) <$> up_vars st;
    ui_held : forall v id, (exists o, up_vars st !! v = Some (Holds (Some (id, o)))) <-> no.2 !! id = Some (Some v);
    ui_dead : forall id, id ∈ up_destroyed st <-> no.2 !! id = Some None;
    ui_once : NoDup (up_destroyed st) }.

  Lemma hbl_app c ks vs vs' : hbl c ks (vs ++ vs') = hbl c ks vs ++ hbl c ks vs'.
  Proof. induction vs as [|v vs IH]; [reflexivity|]. change (hb c ks (held v) ++ hbl c ks (vs ++ vs') = (hb c ks (held v) ++ hbl c ks vs) ++ hbl c ks vs'). rewrite IH. apply app_assoc. Qed.
  Lemma hbl_cons c ks v vs : hbl c ks (v :: vs) = hb c ks (held v) ++ hbl c ks vs.
  Proof. reflexivity. Qed.
  Lemma cut_at {A} (l : list A) i x : l !! i = Some x -> exists l1 l2, l = l1 ++ x :: l2 /\ length l1 = i.
  Proof. intros H. exists (take i l), (drop (S i) l). split; [symmetry; apply take_drop_middle; exact H|]. apply take_length_le. apply lookup_lt_Some in H. lia. Qed.
  Lemma hbl_insert c ks vs i v w : vs !! i = Some v -> hb c ks (held v) ++ hbl c ks (<[i := w]> vs) ≡ₚ hb c ks (held w) ++ hbl c ks vs.
  Proof.
    intros H. destruct (cut_at _ _ _ H) as (l1 & l2 & -> & <-). rewrite insert_mid, !hbl_app, !hbl_cons.
    rewrite (Permutation_app_swap_app (hb c ks (held v)) (hbl c ks l1)), (Permutation_app_swap_app (hb c ks (held w)) (hbl c ks l1)).
    apply Permutation_app_head. apply Permutation_app_swap_app.
  Qed.
  Lemma hb_fst c c' ks p : (hb c ks p).*1 = (hb c' ks p).*1.
  Proof. unfold hb. destruct p as [[id o]|]; [|reflexivity]. destruct (ks !! id); [apply pblocks_fst|reflexivity]. Qed.
  Lemma hbl_fst c c' ks vs : (hbl c ks vs).*1 = (hbl c' ks vs).*1.
  Proof. induction vs as [|v vs IH]; [reflexivity|]. rewrite !hbl_cons, !fmap_app, IH, (hb_fst c c'). reflexivity. Qed.
  Lemma hbl_content c ks vs b x : (b, x) ∈ hbl c ks vs -> exists z, x = c z.
  Proof.
    induction vs as [|v vs IH]; intros Hl; [inversion Hl|]. rewrite hbl_cons in Hl. apply elem_of_app in Hl as [Hl|Hl]; [|exact (IH Hl)].
    unfold hb in Hl. destruct (held v) as [[id o]|]; [|inversion Hl]. destruct (ks !! id); [|inversion Hl]. eapply pblocks_content. exact Hl.
  Qed.
  Lemma tracks_now' s ks vs : tracks s (hbl none_c ks vs) -> tracks s (hbl (fun _ => Some (bytes s)) ks vs).
  Proof. intros T. refine (tracks_content s _ _ (hbl_fst _ _ _ _) _ T). intros p n t f x Hin _. apply hbl_content in Hin as [z Hz]. injection Hz as ->. reflexivity. Qed.
  Lemma tracks_blocks' s L ks vs : L.*1 ≡ₚ (hbl none_c ks vs).*1 -> tracks s L -> tracks s (hbl none_c ks vs).
  Proof.
    intros P (b & A & F & E & H). exists b. split; [exact A|]. split; [exact F|]. split; [rewrite E; exact P|]. intros p n t f x Hin _. apply hbl_content in Hin as [z Hz]. discriminate.
  Qed.
  Lemma hb_more c ks k p : hok ks p -> hb c (ks ++ [k]) p = hb c ks p.
  Proof. unfold hok, hb. destruct p as [[id o]|]; [|reflexivity]. intros (k' & Hk & _). rewrite (lookup_app_l_Some _ _ _ _ Hk), Hk. reflexivity. Qed.
  Lemma hbl_more c ks k vs : (forall v, v ∈ vs -> hok ks (held v)) -> hbl c (ks ++ [k]) vs = hbl c ks vs.
  Proof.
    induction vs as [|v vs IH]; intros H; [reflexivity|]. rewrite !hbl_cons, hb_more, IH; [reflexivity| |]; [intros w Hw; apply H; right; exact Hw|apply H; left].
  Qed.
  Lemma hok_more ks k p : hok ks p -> hok (ks ++ [k]) p.
  Proof. unfold hok. destruct p as [[id o]|]; [|trivial]. intros (k' & Hk & H). exists k'. split; [apply lookup_app_l_Some; exact Hk|exact H]. Qed.

  (** a variable gives up its object *)
  Lemma deleter_ok ks st p : hok ks p -> tracks (up_mem st) (hb none_c ks p ++ hbl none_c ks (up_vars st)) ->
    exists s', deleter malloc dc st p = Ret {| up_mem := s'; up_vars := up_vars st; up_created := up_created st; up_destroyed := up_destroyed st ++ match p with Some (id, _) => [id] | None => [] end |} /\
      tracks s' (hbl (fun _ => Some (bytes (up_mem st))) ks (up_vars st)).
  Proof using Hm Hnf.
    intros Hk T. set (c := fun _ : bool => Some (bytes (up_mem st))).
    assert (Tn : tracks (up_mem st) (hb none_c ks p ++ hbl c ks (up_vars st))).
    { refine (tracks_content _ _ _ _ _ T); [rewrite !fmap_app, (hbl_fst c none_c); reflexivity|].
      intros q n t f x Hin _. apply elem_of_app in Hin as [Hin|Hin]; [|apply hbl_content in Hin as [z Hz]; injection Hz as ->; reflexivity].
      exfalso. unfold hb in Hin. destruct p as [[id o]|]; [|inversion Hin]. destruct (ks !! id); [|inversion Hin]. apply pblocks_content in Hin as [z Hz]. discriminate. }
    destruct p as [[id o]|]; cbn [deleter].
    - destruct Hk as (k & Hk & K1 & K2 & K3). cbn [hb] in Tn. rewrite Hk in Tn.
      destruct (destroy_ok malloc Hm Hnf dc false (up_mem st) _ k o none_c K1 K2 Tn) as (s' & o' & E & T' & _). rewrite E. cbn [obind]. eauto.
    - exists (up_mem st). split; [|exact Tn]. destruct st; cbn. rewrite app_nil_r. reflexivity.
  Qed.

  (** ** ownership *)
  Definition oiff (vs : list uvar) (ow : list (option nat)) : Prop := forall v id, (exists o, vs !! v = Some (Holds (Some (id, o)))) <-> ow !! id = Some (Some v).
  Lemma owner_new vs ow : oiff vs ow -> forall id, ow !! id <> Some (Some (length vs)).
  Proof. intros H id E. apply H in E as [o E]. apply lookup_lt_Some in E. lia. Qed.
  Lemma oiff_null vs ow : oiff vs ow -> oiff (vs ++ [Holds None]) ow.
  Proof.
    intros H v id. pose proof (H v id) as Hv. rewrite <- Hv. split; intros [o E]; exists o; [|apply lookup_app_l_Some; exact E].
    apply lookup_app_Some in E as [E|[_ E]]; [exact E|]. destruct (v - length vs)%nat; discriminate.
  Qed.
  Lemma oiff_make vs ow id0 o0 : id0 = length ow -> oiff vs ow -> oiff (vs ++ [Holds (Some (id0, o0))]) (ow ++ [Some (length vs)]).
  Proof.
    intros -> H v id. pose proof (owner_new vs ow H id) as Hn. split.
    - intros [o E]. apply lookup_app_Some in E as [E|[L E]]; [apply lookup_app_l_Some; apply H; eauto|].
      destruct (v - length vs)%nat eqn:D; [|discriminate]. injection E as <- _. rewrite (list_lookup_middle ow []) by reflexivity. do 2 f_equal. lia.
    - intros E. apply lookup_app_Some in E as [E|[L E]]; [apply H in E as [o E]; exists o; apply lookup_app_l_Some; exact E|].
      destruct (id - length ow)%nat eqn:D; [|discriminate]. injection E as <-. exists o0. rewrite (list_lookup_middle vs []) by reflexivity. do 4 f_equal. lia.
  Qed.
  Lemma fm_lookup (f : option nat -> option nat) (ow : list (option nat)) (id : nat) r : (f <$> ow) !! id = Some r <-> exists x, ow !! id = Some x /\ f x = r.
  Proof. rewrite list_lookup_fmap_Some. split; intros (x & E1 & E2); exists x; split; auto. Qed.
  Lemma oiff_move_new vs ow j p : vs !! j = Some (Holds p) -> oiff vs ow -> oiff (<[j := Holds None]> vs ++ [Holds p]) (owner_next (length vs) (UMoveNew j) <$> ow).
  Proof.
    intros Hj H v id. pose proof (owner_new vs ow H id) as Hn. pose proof (lookup_lt_Some _ _ _ Hj) as Lj. rewrite fm_lookup. split.
    - intros [o E]. apply lookup_app_Some in E as [E|[L E]].
      + apply list_lookup_insert_Some in E as [(_ & E & _)|[Hne E]]; [discriminate|]. exists (Some v). split; [apply H; eauto|]. cbn. rewrite bool_decide_eq_false_2 by congruence. reflexivity.
      + rewrite insert_length in *. destruct (v - length vs)%nat eqn:D; [|discriminate]. injection E as ->. exists (Some j). split; [apply H; eauto|]. cbn. rewrite bool_decide_eq_true_2 by reflexivity. f_equal. lia.
    - intros ([w|] & E & F); [|discriminate]. cbn in F. injection F as F. apply H in E as [o E]. exists o. case_bool_decide as C.
      + subst w v. rewrite Hj in E. injection E as ->. apply (list_lookup_middle _ []). rewrite insert_length. reflexivity.
      + subst w. apply lookup_app_l_Some. rewrite list_lookup_insert_ne by congruence. exact E.
  Qed.
  Lemma oiff_move_assign vs ow nv i j p : vs !! j = Some (Holds p) -> (i < length vs)%nat -> oiff vs ow -> oiff (<[i := Holds p]> (<[j := Holds None]> vs)) (owner_next nv (UMoveAssign i j) <$> ow).
  Proof.
    intros Hj Li H v id. rewrite fm_lookup. split.
    - intros [o E]. apply list_lookup_insert_Some in E as [(-> & E & _)|[Hne E]].
      + injection E as ->. exists (Some j). split; [apply H; eauto|]. cbn. rewrite bool_decide_eq_true_2 by reflexivity. reflexivity.
      + apply list_lookup_insert_Some in E as [(_ & E & _)|[Hne2 E]]; [discriminate|]. exists (Some v). split; [apply H; eauto|]. cbn. rewrite !bool_decide_eq_false_2 by congruence. reflexivity.
    - intros ([w|] & E & F); [|discriminate]. cbn in F. apply H in E as [o E]. case_bool_decide as C.
      + subst w. injection F as <-. rewrite Hj in E. injection E as ->. exists o. apply list_lookup_insert. rewrite insert_length. exact Li.
      + case_bool_decide as C2; [discriminate|]. injection F as ->. exists o. rewrite !list_lookup_insert_ne by congruence. exact E.
  Qed.
  Lemma oiff_end vs ow nv i x : (x = Ended \/ x = Holds None) -> (i < length vs)%nat -> oiff vs ow -> oiff (<[i := x]> vs) (owner_next nv (UScopeEnd i) <$> ow).
  Proof.
    intros Hx Li H v id. rewrite fm_lookup. split.
    - intros [o E]. apply list_lookup_insert_Some in E as [(-> & E & _)|[Hne E]]; [destruct Hx; subst; discriminate|]. exists (Some v). split; [apply H; eauto|]. cbn. rewrite bool_decide_eq_false_2 by congruence. reflexivity.
    - intros ([w|] & E & F); [|discriminate]. cbn in F. apply H in E as [o E]. case_bool_decide as C; [discriminate|]. injection F as ->. exists o. rewrite list_lookup_insert_ne by congruence. exact E.
  Qed.
  Definition diff_ (ow : list (option nat)) (D : list nat) : Prop := (forall id, id ∈ D <-> ow !! id = Some None) /\ NoDup D.
  (** the objects that lose their owner are those destroyed *)
  Lemma dead_next ow D f L : diff_ ow D -> f None = None -> NoDup L -> (forall id, id ∈ L <-> exists w, ow !! id = Some (Some w) /\ f (Some w) = None) -> diff_ (f <$> ow) (D ++ L).
  Proof.
    intros [H ND] Hf NL HL. split.
    - intros id. rewrite elem_of_app, H, HL, fm_lookup. split.
      + intros [E|(w & E & F)]; eauto.
      + intros ([w|] & E & F); [right; eauto|left; exact E].
    - apply NoDup_app. split; [exact ND|]. split; [|exact NL]. intros id H1 H2. apply H in H1. apply HL in H2 as (w & H2 & _). congruence.
  Qed.

  Definition live_now (v : uvar) : bool := match v with Ended => false | Holds _ => true end.
  Lemma scope_at (sc : list bool) (vs : list uvar) (i : nat) : sc = live_now <$> vs -> sc !! i = Some true -> exists p, vs !! i = Some (Holds p).
  Proof. intros -> H. apply list_lookup_fmap_Some in H as (v & H & E). destruct v as [|p]; [discriminate|eauto]. Qed.
  Lemma elem_insert {A} (l : list A) i (x y : A) : y ∈ <[i := x]> l -> y = x \/ y ∈ l.
  Proof. intros H. apply elem_of_list_lookup in H as [j H]. apply list_lookup_insert_Some in H as [(_ & <- & _)|[_ H]]; [auto|right; eapply elem_of_list_lookup_2; exact H]. Qed.
  Lemma owner_next_none nv op : owner_next nv op None = None.
  Proof. destruct op; reflexivity. Qed.
  Lemma owner_keep nv op : (match op with UNull | UMake _ => True | _ => False end) -> forall ow : list (option nat), owner_next nv op <$> ow = ow.
  Proof. intros H ow. transitivity (id <$> ow); [|apply list_fmap_id]. apply list_fmap_ext. intros i [x|] _; destruct op; try destruct H; reflexivity. Qed.

  Definition kinds_next (ks : list kind) (op : uop) : list kind := match op with UMake k => ks ++ [k] | _ => ks end.
  (** what a step leaves alone: the bytes of every object held before and after *)
  Definition kept (ks : list kind) (st st' : uprog) : Prop := forall v' id o k p n t x, up_vars st' !! v' = Some (Holds (Some (id, o))) -> (id < up_created st)%nat -> ks !! id = Some k ->
    (p, n, t) ∈ object_blocks k o -> p <= x < p + n -> (exists v, up_vars st !! v = Some (Holds (Some (id, o)))) /\ bytes (up_mem st') x = bytes (up_mem st) x.
  Lemma hbl_bytes s L ks vs f v id o k p n t x : tracks s L -> (forall b, b ∈ hbl (fun _ => Some f) ks vs -> b ∈ L) -> (forall v, v ∈ vs -> hok ks (held v)) ->
    vs !! v = Some (Holds (Some (id, o))) -> ks !! id = Some k -> (p, n, t) ∈ object_blocks k o -> p <= x < p + n -> bytes s x = f x.
  Proof.
    intros (b & _ & _ & _ & H) Sub Hk Hv Hid Hb Hx. apply (H p n t f x); [|exact Hx]. apply Sub.
    destruct (cut_at _ _ _ Hv) as (l1 & l2 & -> & _). rewrite hbl_app, hbl_cons. apply elem_of_app. right. apply elem_of_app. left. cbn [held hb]. rewrite Hid.
    destruct (Hk (Holds (Some (id, o)))) as (k' & E1 & _ & _ & G); [apply elem_of_app; right; left|]. rewrite Hid in E1. injection E1 as <-.
    revert Hb. unfold object_blocks. clear -G Hx. induction G as [|p' q' ps qs Hpq G IH]; intros Hb; [inversion Hb|]. cbn [pblocks zip_with] in *. rewrite filter_cons in Hb. apply elem_of_app.
    destruct (decide (q'.1.1 = 0)) as [E|E].
    - rewrite decide_False in Hb by (cbn; tauto). right. exact (IH Hb).
    - rewrite decide_True in Hb by (cbn; tauto). apply elem_of_cons in Hb as [[= -> -> ->] |Hb]; [|right; exact (IH Hb)]. left. unfold mk. rewrite decide_False by tauto. left.
  Qed.

  (** the common part of move assignment and scope end: variable i gives up [old], the variables become vs' *)
  Lemma give_up ks sc no st op old vs' no' : uinv ks sc no st ->
    hok ks old -> (forall v, v ∈ vs' -> hok ks (held v)) -> length vs' = length (up_vars st) ->
    hb none_c ks old ++ hbl none_c ks vs' ≡ₚ hbl none_c ks (up_vars st) ->
    no' = (no.1, owner_next no.1 op <$> no.2) -> oiff vs' no'.2 -> scopes_next sc op = live_now <$> vs' ->
    (forall v' id o, vs' !! v' = Some (Holds (Some (id, o))) -> exists v, up_vars st !! v = Some (Holds (Some (id, o)))) ->
    (forall id, id ∈ match old with Some (id, _) => [id] | None => [] end <-> exists w, no.2 !! id = Some (Some w) /\ owner_next no.1 op (Some w) = None) ->
    exists st', deleter malloc dc (set_vars st vs') old = Ret st' /\ uinv ks (scopes_next sc op) no' st' /\ kept ks st st' /\ up_vars st' = vs'.
  Proof using Hm Hnf Hord.
    intros I Ho Hv Hlen P En Oi Es Hback Hdead.
    destruct (deleter_ok ks (set_vars st vs') old Ho) as (s' & E & T').
    { cbn [set_vars up_mem up_vars]. refine (tracks_perm _ _ _ _ (ui_tr _ _ _ _ I)). symmetry. exact P. }
    eexists. split; [exact E|]. cbn [set_vars up_mem up_vars up_created up_destroyed] in *.
    destruct (dead_next no.2 (up_destroyed st) (owner_next no.1 op) (match old with Some (id, _) => [id] | None => [] end)) as [D1 D2].
    { split; [exact (ui_dead _ _ _ _ I)|exact (ui_once _ _ _ _ I)]. } { apply owner_next_none. }
    { destruct old as [[id o]|]; [apply NoDup_singleton|constructor]. } { exact Hdead. }
    split; [|split; [|reflexivity]].
    - rewrite En in *. cbn [fst snd] in *. constructor; cbn [set_vars up_mem up_vars up_created up_destroyed fst snd].
      + refine (tracks_blocks' s' _ _ _ _ T'). rewrite (hbl_fst _ none_c). reflexivity.
      + exact Hv.
      + exact (ui_cr _ _ _ _ I).
      + rewrite Hlen. exact (ui_nv _ _ _ _ I).
      + rewrite fmap_length. exact (ui_ow _ _ _ _ I).
      + exact Es.
      + exact Oi.
      + exact D1.
      + exact D2.
    - intros v' id o k p n t x Hv' _ Hid Hb Hx. cbn [up_vars up_mem] in *. split; [exact (Hback _ _ _ Hv')|]. eapply (hbl_bytes s' _ ks vs' (bytes (up_mem st))); [exact T'| |exact Hv|exact Hv'|exact Hid|exact Hb|exact Hx]. intros b Hb'. exact Hb'.
  Qed.

  Lemma unique_step_ok ks sc no st op : uinv ks sc no st -> uop_ok sc op ->
    exists st', unique_step malloc dc ord st op = Ret st' /\ uinv (kinds_next ks op) (scopes_next sc op) (owners_next no op) st' /\ kept ks st st'.
  Proof using Hm Hnf Hord.
    intros I Hop. destruct no as [nv ow]. pose proof I as [IT IK IC IN IO IS IH ID IU]. cbn [fst snd] in *. fold (live_now) in IS. destruct op as [|k|j|i j|i]; cbn [unique_step uop_ok kinds_next scopes_next owners_next] in *.
    - eexists. split; [reflexivity|]. split.
      + rewrite owner_keep by exact Logic.I. constructor; cbn [set_vars up_mem up_vars up_created up_destroyed fst snd].
        * rewrite hbl_app, hbl_cons. cbn [held hb app]. unfold hbl at 2. cbn. rewrite app_nil_r. exact IT.
        * intros v Hv. apply elem_of_app in Hv as [Hv|Hv]; [exact (IK v Hv)|]. apply elem_of_list_singleton in Hv as ->. exact Logic.I.
        * exact IC.
        * rewrite app_length, IN. cbn. lia.
        * exact IO.
        * rewrite fmap_app, IS. reflexivity.
        * apply oiff_null. exact IH.
        * exact ID.
        * exact IU.
      + intros v' id o k p n t x Hv' _ _ _ _. cbn [set_vars up_vars up_mem] in *. split; [|reflexivity]. apply lookup_app_Some in Hv' as [E|[_ E]]; [eauto|]. destruct (v' - length (up_vars st))%nat; discriminate.
    - destruct Hop as [Hk _]. pose proof (tracks_now' _ _ _ IT) as Tn. destruct (create_ok malloc Hm Hnf dc ord Hord (up_mem st) _ k Hk Tn) as (s' & o & E & T' & G & Ok). rewrite E. cbn [obind]. eexists. split; [reflexivity|].
      assert (KL : (ks ++ [k]) !! up_created st = Some k) by (rewrite IC; apply (list_lookup_middle ks []); reflexivity).
      assert (IK' : forall v, v ∈ up_vars st ++ [Holds (Some (up_created st, o))] -> hok (ks ++ [k]) (held v)).
      { intros v Hv. apply elem_of_app in Hv as [Hv|Hv]; [apply hok_more; exact (IK v Hv)|]. apply elem_of_list_singleton in Hv as ->. exists k. auto. }
      split.
      + rewrite owner_keep by exact Logic.I. constructor; cbn [up_mem up_vars up_created up_destroyed fst snd].
        * refine (tracks_blocks' s' _ _ _ _ T'). rewrite hbl_app, hbl_more by exact IK. rewrite hbl_cons. cbn [held hb]. rewrite KL. change (hbl none_c (ks ++ [k]) []) with (@nil tblock). rewrite app_nil_r.
          rewrite !fmap_app, (hbl_fst _ none_c), (pblocks_fst zc none_c). apply Permutation_app_comm.
        * exact IK'.
        * rewrite app_length, IC. cbn. lia.
        * rewrite app_length, IN. cbn. lia.
        * rewrite !app_length, IO. reflexivity.
        * rewrite fmap_app, IS. reflexivity.
        * rewrite IN. apply (oiff_make (up_vars st) ow (up_created st) o); [congruence|exact IH].
        * intros id. rewrite ID. split; intros Hd; [apply lookup_app_l_Some; exact Hd|]. apply lookup_app_Some in Hd as [Hd|[_ Hd]]; [exact Hd|]. destruct (id - length ow)%nat; discriminate.
        * exact IU.
      + intros v' id o' k' p n t x Hv' Hlt Hid Hb Hx. cbn [up_vars up_mem] in *. apply lookup_app_Some in Hv' as [Hv'|[_ Hv']].
        * split; [eauto|]. eapply (hbl_bytes s' _ ks (up_vars st) (bytes (up_mem st))); [exact T'| |exact IK|exact Hv'|exact Hid|exact Hb|exact Hx]. intros b Hb'. apply elem_of_app. right. exact Hb'.
        * destruct (v' - length (up_vars st))%nat; [|discriminate]. injection Hv' as <- _. lia.
    - destruct (scope_at _ _ _ IS Hop) as [p Hp]. rewrite Hp. eexists. split; [reflexivity|]. pose proof (lookup_lt_Some _ _ _ Hp) as Lj.
      assert (Pk : hok ks p) by exact (IK (Holds p) (elem_of_list_lookup_2 _ _ _ Hp)). split.
      + constructor; cbn [set_vars up_mem up_vars up_created up_destroyed fst snd].
        * refine (tracks_perm _ _ _ _ IT). pose proof (hbl_insert none_c ks (up_vars st) j (Holds p) (Holds None) Hp) as Pm. cbn [held hb app] in Pm. rewrite <- Pm, hbl_app. unfold hbl at 3. cbn. rewrite app_nil_r. apply Permutation_app_comm.
        * intros v Hv. apply elem_of_app in Hv as [Hv|Hv].
          -- apply elem_insert in Hv as [-> |Hv]; [exact Logic.I|exact (IK v Hv)].
          -- apply elem_of_list_singleton in Hv as ->. exact Pk.
        * exact IC.
        * rewrite app_length, insert_length, IN. cbn. lia.
        * rewrite fmap_length. exact IO.
        * rewrite fmap_app, list_fmap_insert. rewrite list_insert_id; [rewrite IS; reflexivity|]. rewrite list_lookup_fmap, Hp. reflexivity.
        * rewrite IN. apply oiff_move_new; assumption.
        * intros id. rewrite ID, fm_lookup. split; [intros E; exists None; auto|]. intros ([w|] & E & F); [discriminate F|exact E].
        * exact IU.
      + intros v' id o k q n t x Hv' _ _ _ _. cbn [set_vars up_vars up_mem] in *. split; [|reflexivity]. apply lookup_app_Some in Hv' as [E|[_ E]].
        * apply list_lookup_insert_Some in E as [(_ & E & _)|[_ E]]; [discriminate|eauto].
        * rewrite insert_length in E. destruct (v' - length (up_vars st))%nat; [|discriminate]. injection E as ->. eauto.
    - destruct Hop as [Hi Hj]. destruct (scope_at _ _ _ IS Hi) as [pi Hpi]. destruct (scope_at _ _ _ IS Hj) as [p Hp]. rewrite Hp. pose proof (lookup_lt_Some _ _ _ Hpi) as Li. pose proof (lookup_lt_Some _ _ _ Hp) as Lj.
      assert (Pk : hok ks p) by exact (IK (Holds p) (elem_of_list_lookup_2 _ _ _ Hp)).
      set (old := if decide (i = j) then None else pi). assert (Hold : <[j := Holds None]> (up_vars st) !! i = Some (Holds old)).
      { unfold old. destruct (decide (i = j)) as [-> |Hne]; [apply list_lookup_insert; exact Lj|rewrite list_lookup_insert_ne by congruence; exact Hpi]. }
      rewrite Hold.
      assert (Ok : hok ks old) by (unfold old; destruct (decide (i = j)); [exact Logic.I|exact (IK (Holds pi) (elem_of_list_lookup_2 _ _ _ Hpi))]).
      destruct (give_up ks sc (nv, ow) st (UMoveAssign i j) old (<[i := Holds p]> (<[j := Holds None]> (up_vars st))) (nv, owner_next nv (UMoveAssign i j) <$> ow)) as (st' & E & I' & K' & _); cbn [fst snd] in *.
      + exact I.
      + exact Ok.
      + intros v Hv. apply elem_insert in Hv as [-> |Hv]; [exact Pk|]. apply elem_insert in Hv as [-> |Hv]; [exact Logic.I|exact (IK v Hv)].
      + rewrite !insert_length. reflexivity.
      + pose proof (hbl_insert none_c ks _ i (Holds old) (Holds p) Hold) as P1. pose proof (hbl_insert none_c ks (up_vars st) j (Holds p) (Holds None) Hp) as P2. cbn [held hb app] in *. rewrite P1, P2. reflexivity.
      + reflexivity.
      + apply oiff_move_assign; [exact Hp|exact Li|exact IH].
      + cbn [scopes_next]. rewrite !list_fmap_insert. rewrite !list_insert_id; [exact IS| |]; rewrite ?list_lookup_fmap.
        * rewrite Hp. reflexivity.
        * rewrite list_insert_id by (rewrite list_lookup_fmap, Hp; reflexivity). rewrite list_lookup_fmap, Hpi. reflexivity.
      + intros v' id o Hv'. apply list_lookup_insert_Some in Hv' as [(_ & Ev & _)|[_ Hv']]; [injection Ev as ->; eauto|]. apply list_lookup_insert_Some in Hv' as [(_ & Ev & _)|[_ Hv']]; [discriminate|eauto].
      + intros id. unfold old. split.
        * destruct (decide (i = j)) as [-> |Hne]; [intros Hin; inversion Hin|]. destruct pi as [[id' o']|]; [|intros Hin; inversion Hin]. intros Hin. apply elem_of_list_singleton in Hin as ->.
          exists i. split; [apply IH; eauto|]. cbn [owner_next]. rewrite bool_decide_eq_false_2 by congruence. rewrite bool_decide_eq_true_2 by reflexivity. reflexivity.
        * intros (w & Ew & F). cbn [owner_next] in F. case_bool_decide as C1; [discriminate|]. case_bool_decide as C2; [|discriminate]. subst w. rewrite decide_False by congruence. apply IH in Ew as [o Ew]. rewrite Hpi in Ew. injection Ew as ->. left.
      + eauto.
    - destruct (scope_at _ _ _ IS Hop) as [p Hp]. rewrite Hp. pose proof (lookup_lt_Some _ _ _ Hp) as Li.
      assert (Pk : hok ks p) by exact (IK (Holds p) (elem_of_list_lookup_2 _ _ _ Hp)).
      destruct (give_up ks sc (nv, ow) st (UScopeEnd i) p (<[i := Ended]> (up_vars st)) (nv, owner_next nv (UScopeEnd i) <$> ow)) as (st' & E & I' & K' & _); cbn [fst snd] in *.
      + exact I.
      + exact Pk.
      + intros v Hv. apply elem_insert in Hv as [-> |Hv]; [exact Logic.I|exact (IK v Hv)].
      + rewrite !insert_length. reflexivity.
      + pose proof (hbl_insert none_c ks (up_vars st) i (Holds p) Ended Hp) as P2. cbn [held hb app] in *. exact P2.
      + reflexivity.
      + apply oiff_end; [left; reflexivity|exact Li|exact IH].
      + cbn [scopes_next]. rewrite list_fmap_insert, IS. reflexivity.
      + intros v' id o Hv'. apply list_lookup_insert_Some in Hv' as [(_ & Ev & _)|[_ Hv']]; [discriminate|eauto].
      + intros id. split.
        * destruct p as [[id' o']|]; [|intros Hin; inversion Hin]. intros Hin. apply elem_of_list_singleton in Hin as ->. exists i. split; [apply IH; eauto|]. cbn [owner_next]. rewrite bool_decide_eq_true_2 by reflexivity. reflexivity.
        * intros (w & Ew & F). cbn [owner_next] in F. case_bool_decide as C1; [|discriminate]. subst w. apply IH in Ew as [o Ew]. rewrite Hp in Ew. injection Ew as ->. left.
      + eauto.
  Qed.

  Lemma unique_run_ok ops : forall ks sc no st, uinv ks sc no st -> unique_ok sc ops ->
    exists st', unique_run malloc dc ord st ops = Ret st' /\ uinv (fold_left kinds_next ops ks) (fold_left scopes_next ops sc) (fold_left owners_next ops no) st'.
  Proof using Hm Hnf Hord.
    induction ops as [|op ops IH]; intros ks sc no st I Hok; cbn [unique_run fold_left]; [eauto|]. destruct Hok as [H1 H2].
    destruct (unique_step_ok ks sc no st op I H1) as (st' & E & I' & _). rewrite E. cbn [obind]. exact (IH _ _ _ _ I' H2).
  Qed.
  Lemma kinds_created ops : forall ks, fold_left kinds_next ops ks = ks ++ created ops.
  Proof.
    induction ops as [|op ops IH]; intros ks; cbn [fold_left]; [unfold created; cbn; rewrite app_nil_r; reflexivity|]. rewrite IH. destruct op; try reflexivity. cbn [kinds_next]. rewrite <- app_assoc. reflexivity.
  Qed.
  Lemma uinv0 : uinv [] [] (0%nat, []) unique0.
  Proof.
    constructor; cbn [unique0 up_mem up_vars up_created up_destroyed fst snd]; try reflexivity.
    - exact tracks0.
    - intros v H. inversion H.
    - intros v id. split; [intros [o H]; discriminate|discriminate].
    - intros id. split; [intros H; inversion H|discriminate].
    - constructor.
  Qed.
  Lemma unique_reach ops st : reachable_unique malloc dc ord ops st -> uinv (created ops) (scopes ops) (fold_left owners_next ops (0%nat, [])) st.
  Proof using Hm Hnf Hord.
    intros [Hok E]. destruct (unique_run_ok ops [] [] _ _ uinv0 Hok) as (st' & E' & I). rewrite E in E'. injection E' as <-. rewrite kinds_created in I. exact I.
  Qed.

  Lemma hbl_blocks c ks vs : (forall v, v ∈ vs -> hok ks (held v)) -> (hbl c ks vs).*1 = held_blocks ks vs.
  Proof.
    induction vs as [|v vs IH]; intros H; [reflexivity|]. rewrite hbl_cons, fmap_app, IH by (intros w Hw; apply H; right; exact Hw).
    change (held_blocks ks (v :: vs)) with ((match held v with Some (id, o) => match ks !! id with Some k => object_blocks k o | None => [] end | None => [] end) ++ held_blocks ks vs). f_equal.
    specialize (H v ltac:(left)). unfold hb, hok in *. destruct (held v) as [[id o]|]; [|reflexivity]. destruct H as (k & -> & _ & _ & G). apply pblocks_blocks. exact G.
  Qed.
  Lemma unique_history ops : unique_ok [] ops ->
    exists st, unique_run malloc dc ord unique0 ops = Ret st /\
      (forall v id, (exists o, up_vars st !! v = Some (Holds (Some (id, o)))) <-> owners ops !! id = Some (Some v)) /\
      (forall id, id ∈ up_destroyed st <-> owners ops !! id = Some None) /\ NoDup (up_destroyed st) /\
      length (owners ops) = length (created ops) /\ up_created st = length (created ops) /\
      heap (up_mem st) ≡ₚ (held_blocks (created ops) (up_vars st)).*1 /\
      (forall p n t, (p, n, t) ∈ held_blocks (created ops) (up_vars st) -> size_bytes (up_mem st) p = n /\ get_dynamic_memory_type (up_mem st) p = t) /\
      (forall t, allocation_count (up_mem st) t - deallocation_count (up_mem st) t = Z.of_nat (length (filter (fun b => b.2 = t) (held_blocks (created ops) (up_vars st))))).
  Proof using Hm Hnf Hord.
    intros Hok. destruct (unique_run_ok ops [] [] _ _ uinv0 Hok) as (st & E & I). rewrite kinds_created in I. cbn [app] in I. exists st. split; [exact E|].
    destruct I as [IT IK IC IN IO IS IH ID IU]. split; [exact IH|]. split; [exact ID|]. split; [exact IU|]. split; [exact IO|]. split; [exact IC|].
    destruct IT as (b & A & Fb & Eb & _). rewrite (hbl_blocks none_c _ _ IK) in Eb. pose proof (sr_heap _ _ (proj1 A)) as Hh. split; [rewrite Hh, Eb; reflexivity|]. split.
    - intros p n t Hin. rewrite <- Eb in Hin. exact (size_bytes_live malloc Hm Hnf _ b p n t A Hin).
    - intros t. rewrite (count_live _ b t A). unfold live_count. rewrite Eb. reflexivity.
  Qed.
  Lemma unowned_blocks ks vs : (forall v id o, vs !! v <> Some (Holds (Some (id, o)))) -> held_blocks ks vs = [].
  Proof.
    induction vs as [|v vs IH]; intros H; [reflexivity|].
    change (held_blocks ks (v :: vs)) with ((match held v with Some (id, o) => match ks !! id with Some k => object_blocks k o | None => [] end | None => [] end) ++ held_blocks ks vs).
    rewrite IH by (intros w id o Hw; exact (H (S w) id o Hw)). destruct v as [|[[id o]|]]; [reflexivity| |reflexivity]. exfalso. exact (H 0%nat id o eq_refl).
  Qed.
  Lemma unique_all_ended ops : unique_ok [] ops -> Forall (fun b => b = false) (scopes ops) ->
    exists st, unique_run malloc dc ord unique0 ops = Ret st /\ heap (up_mem st) = [] /\ up_destroyed st ≡ₚ seq 0 (length (created ops)) /\
      forall t, allocation_count (up_mem st) t = deallocation_count (up_mem st) t.
  Proof using Hm Hnf Hord.
    intros Hok HF. destruct (unique_run_ok ops [] [] _ _ uinv0 Hok) as (st0 & E0 & I). pose proof (ui_sc _ _ _ _ I) as Hs. fold (scopes ops) in Hs.
    destruct (unique_history ops Hok) as (st & E & H1 & H2 & H3 & H4 & H5 & H6 & _ & H8). rewrite E in E0. injection E0 as <-. exists st. split; [exact E|].
    assert (N : forall v id o, up_vars st !! v <> Some (Holds (Some (id, o)))).
    { intros v id o Hv. rewrite Hs in HF. assert (In : true ∈ (fun v => match v with Ended => false | Holds _ => true end) <$> up_vars st).
      { apply elem_of_list_fmap. exists (Holds (Some (id, o))). split; [reflexivity|]. eapply elem_of_list_lookup_2. exact Hv. }
      rewrite Forall_forall in HF. discriminate (HF _ In). }
    rewrite (unowned_blocks _ _ N) in *. split; [apply Permutation_nil; symmetry; exact H6|]. split.
    - apply NoDup_Permutation; [exact H3|apply NoDup_seq|]. intros id. rewrite H2, elem_of_seq, <- H4. split.
      + intros Hd. apply lookup_lt_Some in Hd. lia.
      + intros [_ Hlt]. destruct (lookup_lt_is_Some_2 (owners ops) id ltac:(lia)) as [[v|] Hx]; [|exact Hx]. exfalso. apply H1 in Hx as [o Hx]. exact (N _ _ _ Hx).
    - intros t. specialize (H8 t). cbn in H8. lia.
  Qed.
  Lemma unique_one_step ops st op : reachable_unique malloc dc ord ops st -> uop_ok (scopes ops) op ->
    exists st', unique_step malloc dc ord st op = Ret st' /\
      forall v' id o k p n t x, up_vars st' !! v' = Some (Holds (Some (id, o))) -> (id < length (created ops))%nat -> created ops !! id = Some k ->
        (p, n, t) ∈ object_blocks k o -> p <= x < p + n -> (exists v, up_vars st !! v = Some (Holds (Some (id, o)))) /\ bytes (up_mem st') x = bytes (up_mem st) x.
  Proof using Hm Hnf Hord.
    intros R Hop. pose proof (unique_reach _ _ R) as I. destruct (unique_step_ok _ _ _ _ op I Hop) as (st' & E & _ & K). exists st'. split; [exact E|].
    intros v' id o k p n t x Hv Hlt Hk Hb Hx. rewrite <- (ui_cr _ _ _ _ I) in Hlt. exact (K v' id o k p n t x Hv Hlt Hk Hb Hx).
  Qed.
  Lemma unique_self_move ops st i : reachable_unique malloc dc ord ops st -> scopes ops !! i = Some true -> unique_step malloc dc ord st (UMoveAssign i i) = Ret st.
  Proof using Hm Hnf Hord.
    intros R Hi. pose proof (unique_reach _ _ R) as I. destruct (scope_at _ _ _ (ui_sc _ _ _ _ I) Hi) as [p Hp]. cbn [unique_step]. rewrite Hp, list_lookup_insert by (eapply lookup_lt_Some; exact Hp).
    cbn [deleter]. rewrite list_insert_insert, (list_insert_id _ _ _ Hp). destruct st. reflexivity.
  Qed.
End unique_proofs.
