(** Kernels whose keys do not collide (C78): every step is defined and keeps the invariant; from the start of a kernel to its end. *)
From Verif Require Import Base Conc SlotModel VectorModel UnorderedModel UnorderedSpec UnorderedProofs UConcModel UConcSpec UConcProofs UEraseModel UEraseSpec UMixSpec UMixShape USepSpec USepProofs.

Lemma nodup_bind {A B} (f : A -> list B) (l : list A) :
  (forall i j t t' b, l !! i = Some t -> l !! j = Some t' -> b ∈ f t -> b ∈ f t' -> i = j) -> (forall t, NoDup (f t)) -> NoDup (l ≫= f).
Proof.
  induction l as [|a l IH]; intros H1 H2; [constructor|]. rewrite bind_cons. apply NoDup_app. split; [apply H2|]. split.
  - intros b Hb Hb'. apply elem_of_list_bind in Hb' as (t & Ht & Hl). apply elem_of_list_lookup in Hl as [j Hj]. specialize (H1 0%nat (S j) a t b eq_refl Hj Hb Ht). discriminate.
  - apply IH; [|exact H2]. intros i j t t' b Hi Hj Hb Hb'. specialize (H1 (S i) (S j) t t' b Hi Hj Hb Hb'). congruence.
Qed.
Lemma sum_bools (l : list bool) : 0 <= sumZ b2z l <= Z.of_nat (length l).
Proof. induction l as [|b l IH]; cbn; [lia|]. destruct b; cbn; lia. Qed.
Lemma sum_some_false (l : list bool) x : l !! x = Some false -> sumZ b2z l < Z.of_nat (length l).
Proof. revert x. induction l as [|b l IH]; intros [|x] H; cbn in *; try discriminate; [injection H as ->; cbn; pose proof (sum_bools l); lia|]. specialize (IH x H). destruct b; cbn; lia. Qed.
Lemma sum_marked (Q : list nat) (l : list bool) : NoDup Q -> (forall b, b ∈ Q -> l !! b = Some false) ->
  sumZ b2z (foldr (fun b l => <[b := true]> l) l Q) = sumZ b2z l + Z.of_nat (length Q) /\ forall x, x ∉ Q -> foldr (fun b l => <[b := true]> l) l Q !! x = l !! x.
Proof.
  induction Q as [|b Q IH]; intros Hn Hf; [split; [cbn; lia|reflexivity]|]. inversion Hn as [|? ? N1 N2]; subst. destruct IH as [I1 I2]; [exact N2|intros b' Hb'; apply Hf; right; exact Hb'|]. cbn [foldr]. split.
  - rewrite (sum_put _ _ false); [|rewrite I2 by exact N1; apply Hf; left]. rewrite I1. cbn [length b2z]. lia.
  - intros x Hx. rewrite not_elem_of_cons in Hx. rewrite list_lookup_insert_ne by (intros ->; tauto). apply I2. tauto.
Qed.

Section top.
  Context {K V : Type} (kf : V -> K) (hash : K -> Z) (keq : K -> K -> bool) (bc E : nat).
  Hypothesis HP : key_equality keq /\ hash_respects keq hash /\ sizes_ok bc E.
  Notation n := (bc + E)%nat.
  Notation bkt := (UnorderedProofs.bkt hash bc).
  Notation bk op := (bkt (op_key kf op)).
  Notation step := (estep kf hash keq bc E).
  Implicit Types (s : cshared V) (t : cthread K V) (ls : list (cthread K V)) (h : list (nat * (cop K V * cret))) (op : cop K V).
  Context (progs : list (list (cop K V))) (s0 : cshared V).
  Hypothesis H0 : srest kf hash bc E s0.
  Hypothesis Hsep : separate kf hash keq bc s0 progs.
  Notation sinv := (sinv kf hash keq bc E progs s0).
  Notation pcok := (pcok kf hash keq bc progs).
  Notation ev_ok s evl := (match evl with [] => True | [x] => set_call kf keq (content_of s) x (content_of s) | _ => False end).

  Lemma count_lt s ls h : sinv s ls h -> c_count s < Z.of_nat (length (c_occ s)).
  Proof using HP H0.
    intros I. destruct (s_len _ _ _ _ _ _ _ _ _ _ I) as (L1 & L2 & L3 & L4). destruct H0 as (_ & _ & _ & _ & _ & (x & Hx & Hfx) & _).
    set (f := fun t : cthread K V => match c_prog t with op :: _ => match c_pc t with ISetB | XCntB _ => [bk op] | _ => [] end | [] => [] end).
    assert (Hf : forall i t b, ls !! i = Some t -> b ∈ f t -> held kf hash bc t = Some b /\ c_occ s !! b = Some false /\ (b < bc)%nat).
    { intros i t b Hi Hb. pose proof (s_thr _ _ _ _ _ _ _ _ _ _ I _ _ Hi) as Ht. unfold tok in Ht. unfold f in Hb. unfold held. destruct (c_prog t) as [|op rest]; [inversion Hb|].
      destruct (c_pc t); try (inversion Hb; fail); apply elem_of_list_singleton in Hb; subst b; (split; [reflexivity|split; [|apply (bk_lt hash keq bc E HP)]]); destruct op; cbn in Ht; tauto. }
    destruct (sum_marked (ls ≫= f) (c_occ s)) as [S1 S2].
    - apply nodup_bind.
      + intros i j t t' b Hi Hj Hb Hb'. destruct (Hf _ _ _ Hi Hb) as (A & _). destruct (Hf _ _ _ Hj Hb') as (B & _). exact (s_excl _ _ _ _ _ _ _ _ _ _ I _ _ _ _ _ Hi Hj A B).
      + intros t. unfold f. destruct (c_prog t); [constructor|]. destruct (c_pc t); repeat constructor; apply not_elem_of_nil.
    - intros b Hb. apply elem_of_list_bind in Hb as (t & Ht & Hl). apply elem_of_list_lookup in Hl as [i Hi]. apply (Hf _ _ _ Hi Ht).
    - assert (Hl : Z.of_nat (length (ls ≫= f)) = sumZ counting ls).
      { assert (Hpc : forall t, t ∈ ls -> c_prog t = [] -> c_pc t = UIdle).
        { intros t Ht Ep. apply elem_of_list_lookup in Ht as [i Hi]. pose proof (s_thr _ _ _ _ _ _ _ _ _ _ I _ _ Hi) as Htk. unfold tok in Htk. rewrite Ep in Htk. exact Htk. }
        clear - Hpc. induction ls as [|t ls IH]; [reflexivity|]. rewrite bind_cons, app_length, Nat2Z.inj_add, IH by (intros t' Ht'; apply Hpc; right; exact Ht'). rewrite sumZ_cons. f_equal.
        unfold f, counting. specialize (Hpc t (elem_of_list_here _ _)). destruct (c_prog t); [rewrite Hpc by reflexivity; reflexivity|]. destruct (c_pc t); reflexivity. }
      rewrite (s_cnt _ _ _ _ _ _ _ _ _ _ I), <- Hl, <- S1.
      assert (Hlen : forall Q (l : list bool), length (foldr (fun b l => <[b := true]> l) l Q) = length l) by (intros Q l; induction Q as [|b Q IH]; [reflexivity|]; cbn [foldr]; rewrite insert_length; exact IH).
      rewrite <- (Hlen (ls ≫= f) (c_occ s)). apply (sum_some_false _ x). rewrite S2; [rewrite (s_hi _ _ _ _ _ _ _ _ _ _ I) by exact Hx; exact Hfx|].
      intros Hin. apply elem_of_list_bind in Hin as (t & Ht & Hin). apply elem_of_list_lookup in Hin as [i Hi]. destruct (Hf _ _ _ Hi Ht) as (_ & _ & Hb). lia.
  Qed.

  (** *** the kinds of steps *)
  Section kinds.
    Context (s : cshared V) (ls : list (cthread K V)) (h : list (nat * (cop K V * cret))) (i : nat) (t : cthread K V) (op : cop K V) (rest : list (cop K V)).
    Context (I : sinv s ls h) (Hi : ls !! i = Some t) (Ep : c_prog t = op :: rest).
    Notation hs evl := (h ++ ((fun x => (i, x)) <$> evl)).
    Lemma fin_held r : held kf hash bc (cfinish t op r) = None.
    Proof. unfold held. cbn. destruct (tail (c_prog t)); reflexivity. Qed.
    Lemma fin_pend r : pend (cfinish t op r) = [].
    Proof. unfold pend. cbn. destruct (tail (c_prog t)); reflexivity. Qed.
    Lemma fin_tok r : tok kf hash keq bc progs s (cfinish t op r).
    Proof. unfold tok. cbn. destruct (tail (c_prog t)) as [|[]]; cbn; auto. Qed.
    Lemma k_go pc evl : hl pc = hl (c_pc t) -> counting (cgo t pc) = counting t -> pcok s op (bk op) pc -> pend (cgo t pc) = pend t ++ evl -> ev_ok s evl -> sinv s (<[i := cgo t pc]> ls) (hs evl).
    Proof using HP Hsep I Hi Ep.
      intros Hh Hc Hpc Hp Hev. refine (step_plain kf hash keq bc E HP progs s0 s ls h i t op rest s (cgo t pc) evl I Hi Ep eq_refl eq_refl eq_refl eq_refl _ _ (or_introl eq_refl) _ _ Hev); [lia| | |].
      - left. split; [reflexivity|]. unfold held. cbn. rewrite Hh. reflexivity.
      - unfold tok. cbn. rewrite Ep. exact Hpc.
      - rewrite Hp. reflexivity.
    Qed.
    Lemma k_fin r : hl (c_pc t) = false -> counting t = 0 -> pend t = [(op, r)] -> sinv s (<[i := cfinish t op r]> ls) (hs []).
    Proof using HP Hsep I Hi Ep.
      intros Hh Hc Hp. refine (step_plain kf hash keq bc E HP progs s0 s ls h i t op rest s (cfinish t op r) [] I Hi Ep eq_refl eq_refl eq_refl eq_refl _ _ (or_intror _) (fin_tok r) _ Logic.I); [rewrite Hc; cbn; lia| | |].
      - left. split; [reflexivity|]. rewrite fin_held. unfold held. rewrite Ep, Hh. reflexivity.
      - split; [cbn; rewrite Ep; reflexivity|reflexivity].
      - rewrite fin_pend, Hp, !app_nil_r. reflexivity.
    Qed.
    Lemma k_lock pc : c_locks s !! bk op = Some false -> hl pc = true -> counting (cgo t pc) = counting t -> pend (cgo t pc) = pend t -> pcok s op (bk op) pc -> sinv (put_lock s (bk op) true) (<[i := cgo t pc]> ls) (hs []).
    Proof using HP Hsep I Hi Ep.
      intros Hf Hh Hc Hp Hpc. refine (step_plain kf hash keq bc E HP progs s0 s ls h i t op rest (put_lock s (bk op) true) (cgo t pc) [] I Hi Ep eq_refl eq_refl eq_refl eq_refl _ _ (or_introl eq_refl) _ _ Logic.I); [cbn [put_lock c_count]; lia| | |].
      - right. left. split; [exact Hf|]. split; [reflexivity|]. unfold held. cbn. rewrite Ep, Hh. reflexivity.
      - unfold tok. cbn. rewrite Ep. exact Hpc.
      - rewrite Hp, app_nil_r. reflexivity.
    Qed.
    Lemma k_unlock pc : hl (c_pc t) = true -> hl pc = false -> counting (cgo t pc) = counting t -> pend (cgo t pc) = pend t -> pcok s op (bk op) pc -> sinv (put_lock s (bk op) false) (<[i := cgo t pc]> ls) (hs []).
    Proof using HP Hsep I Hi Ep.
      intros Hf Hh Hc Hp Hpc. refine (step_plain kf hash keq bc E HP progs s0 s ls h i t op rest (put_lock s (bk op) false) (cgo t pc) [] I Hi Ep eq_refl eq_refl eq_refl eq_refl _ _ (or_introl eq_refl) _ _ Logic.I); [cbn [put_lock c_count]; lia| | |].
      - right. right. split; [unfold held; rewrite Ep, Hf; reflexivity|]. split; [reflexivity|]. unfold held. cbn. rewrite Ep, Hh. reflexivity.
      - unfold tok. cbn. rewrite Ep. exact Hpc.
      - rewrite Hp, app_nil_r. reflexivity.
    Qed.
    Lemma k_unlock_fin r : hl (c_pc t) = true -> counting t = 0 -> pend t = [(op, r)] -> sinv (put_lock s (bk op) false) (<[i := cfinish t op r]> ls) (hs []).
    Proof using HP Hsep I Hi Ep.
      intros Hf Hc Hp. refine (step_plain kf hash keq bc E HP progs s0 s ls h i t op rest (put_lock s (bk op) false) (cfinish t op r) [] I Hi Ep eq_refl eq_refl eq_refl eq_refl _ _ (or_intror _) (fin_tok r) _ Logic.I); [cbn [put_lock c_count]; rewrite Hc; cbn; lia| | |].
      - right. right. split; [unfold held; rewrite Ep, Hf; reflexivity|]. split; [reflexivity|]. apply fin_held.
      - split; [cbn; rewrite Ep; reflexivity|reflexivity].
      - rewrite fin_pend, Hp, !app_nil_r. reflexivity.
    Qed.
    Lemma k_count pc m : hl pc = hl (c_pc t) -> m = c_count s - counting t + counting (cgo t pc) -> pend (cgo t pc) = pend t -> pcok s op (bk op) pc -> sinv (put_count s m) (<[i := cgo t pc]> ls) (hs []).
    Proof using HP Hsep I Hi Ep.
      intros Hh Hc Hp Hpc. refine (step_plain kf hash keq bc E HP progs s0 s ls h i t op rest (put_count s m) (cgo t pc) [] I Hi Ep eq_refl eq_refl eq_refl eq_refl Hc _ (or_introl eq_refl) _ _ Logic.I).
      - left. split; [reflexivity|]. unfold held. cbn. rewrite Hh. reflexivity.
      - unfold tok. cbn. rewrite Ep. exact Hpc.
      - rewrite Hp, app_nil_r. reflexivity.
    Qed.
  End kinds.

  Ltac st := match goal with Epc : c_pc ?t = _, Ep : c_prog ?t = _, Hb : bucket_of _ _ _ = Some _ |- _ => unfold estep; rewrite Epc; unfold ustep; rewrite Ep; cbn [op_key]; rewrite Hb, ?Epc; cbn iota end.
  Ltac pe := match goal with Epc : c_pc ?t = _, Ep : c_prog ?t = _ |- _ => unfold pend, counting; cbn [cgo c_prog c_pc]; rewrite ?Ep, ?Epc; reflexivity end.
  Ltac hlt := match goal with Epc : c_pc ?t = _ |- _ => rewrite Epc; reflexivity end.
  Ltac kgo := match goal with I : USepProofs.sinv _ _ _ _ _ _ _ _ ?ls _, Hi : ?ls !! _ = Some ?t, Ep : c_prog ?t = _ |- _ => (eapply (k_go _ ls _ _ t _ _ I Hi Ep); [hlt|pe| |pe|]) end.
  Ltac klock := match goal with I : USepProofs.sinv _ _ _ _ _ _ _ _ ?ls _, Hi : ?ls !! _ = Some ?t, Ep : c_prog ?t = _, Hl : c_locks _ !! _ = Some _ |- _ => (eapply (k_lock _ ls _ _ t _ _ I Hi Ep); [exact Hl|reflexivity|pe|pe|]) end.
  Ltac kunl := match goal with I : USepProofs.sinv _ _ _ _ _ _ _ _ ?ls _, Hi : ?ls !! _ = Some ?t, Ep : c_prog ?t = _ |- _ => (eapply (k_unlock _ ls _ _ t _ _ I Hi Ep); [hlt|reflexivity|pe|pe|]) end.
  Ltac kcnt := match goal with I : USepProofs.sinv _ _ _ _ _ _ _ _ ?ls _, Hi : ?ls !! _ = Some ?t, Ep : c_prog ?t = _, Epc : c_pc ?t = _ |- _ => (eapply (k_count _ ls _ _ t _ _ I Hi Ep); [hlt|unfold counting; cbn [cgo c_pc]; rewrite Epc; lia|pe|]) end.
  Ltac kfin := match goal with I : USepProofs.sinv _ _ _ _ _ _ _ _ ?ls _, Hi : ?ls !! _ = Some ?t, Ep : c_prog ?t = _ |- _ => (eapply (k_fin _ ls _ _ t _ _ I Hi Ep); [hlt|pe|pe]) end.
  Ltac kufin := match goal with I : USepProofs.sinv _ _ _ _ _ _ _ _ ?ls _, Hi : ?ls !! _ = Some ?t, Ep : c_prog ?t = _ |- _ => (eapply (k_unlock_fin _ ls _ _ t _ _ I Hi Ep); [hlt|pe|pe]) end.
  Ltac ev0 s' t' := (exists s', t', []; split; [st|]).
  Lemma step_all s ls h i t : sinv s ls h -> ls !! i = Some t -> c_prog t <> [] ->
    exists s' t' evl, step i s t = Some (s', t') /\ sinv s' (<[i := t']> ls) (h ++ ((fun x => (i, x)) <$> evl)).
  Proof using HP H0 Hsep.
    intros I Hi Hp. destruct (c_prog t) as [|op rest] eqn:Ep; [congruence|]. clear Hp.
    pose proof (bk_bucket hash keq bc E HP (op_key kf op)) as Hb. pose proof (bk_lt hash keq bc E HP (op_key kf op)) as Hlt.
    destruct (s_len _ _ _ _ _ _ _ _ _ _ I) as (L1 & L2 & L3 & L4).
    assert (U : key_used kf progs (op_key kf op)) by (eapply makes_key, (s_prg _ _ _ _ _ _ _ _ _ _ I _ _ _ Hi); rewrite Ep; left).
    assert (Mk : makes progs i op) by (eapply (s_prg _ _ _ _ _ _ _ _ _ _ I _ _ _ Hi); rewrite Ep; left).
    assert (Hoff : c_off s !! bk op = Some 0) by (rewrite (s_off _ _ _ _ _ _ _ _ _ _ I); exact (off_zero kf hash keq bc E HP progs s0 Hsep _ U)).
    destruct (lookup_lt_is_Some_2 (c_occ s) (bk op)) as [o Ho]; [lia|]. destruct (lookup_lt_is_Some_2 (c_locks s) (bk op)) as [l Hl]; [lia|]. destruct (lookup_lt_is_Some_2 (c_values s) (bk op)) as [w Hw]; [lia|].
    pose proof (s_thr _ _ _ _ _ _ _ _ _ _ I _ _ Hi) as Htk. unfold tok in Htk. rewrite Ep in Htk.
    assert (Hpre : o = true -> haskey kf keq s (bk op) (op_key kf op)) by (intros ->; exact (haskey_occ kf hash keq bc E progs s0 s ls h _ I U Ho)).
    assert (Hyes : o = true -> exists v, content_of s (bk op) = Some v /\ keq (kf v) (op_key kf op) = true) by (intros ->; exact (present kf hash keq bc E progs s0 s ls h _ I U Ho)).
    assert (Hno : o = false -> ~ has_key kf keq (content_of s) (op_key kf op)) by (intros ->; exact (absent kf hash keq bc E progs s0 s ls h _ I U Ho)).
    pose proof (count_lt s ls h I) as Hcnt. destruct H0 as (_ & _ & _ & _ & _ & _ & Hclamp). pose proof (s_ex _ _ _ _ _ _ _ _ _ _ I) as Hex. rewrite <- Hex in Hclamp.
    destruct (c_pc t) as [| | |c j|c j|c j|c j|c j|c j|c j p|c j p| | | | | | |r|e|e q|e p|e p|e p|e p|e p|e r|p|p|p|p|p ok|p q|p q|p|p q|p q|p q o'|p q o'|p q|p q|p q|p q x|p q ok|q ok] eqn:Epc;
      try (destruct c); try (destruct r as [r|]); destruct op as [v|k|k]; cbn [USepProofs.pcok] in Htk; try contradiction; cbn [op_key] in *; repeat match type of Htk with _ /\ _ => let A := fresh "Hx" in destruct Htk as [A Htk]; try subst end; repeat match goal with A : ?x = bkt _ |- _ => is_var x; subst x end.
    (* idle *)
    - ev0 s (cgo t UFullCheck); [reflexivity|]. kgo; exact Logic.I.
    - ev0 s (cgo t (FOcc FEr1 (bkt k))); [reflexivity|]. kgo; [reflexivity|exact Logic.I].
    - ev0 s (cgo t (FOcc FUser (bkt k))); [reflexivity|]. kgo; [reflexivity|exact Logic.I].
    (* full, empty *)
    - ev0 s (cgo t UEmptyCheck); [rewrite (proj2 (Z.eqb_neq _ _)) by lia; reflexivity|]. kgo; exact Logic.I.
    - ev0 s (cgo t (FOcc FIns1 (bkt (kf v)))); [rewrite (proj2 (Z.eqb_neq _ _)) by exact Hclamp; reflexivity|]. kgo; [reflexivity|exact Logic.I].
    (* FOcc *)
    - destruct o.
      + exists s, (cgo t (FVal FUser (bkt k))), [(CFind k, RFound (Some (bkt k)))]. split; [st; rewrite Ho; reflexivity|]. kgo; [split; [reflexivity|exact (Hpre eq_refl)]|]. cbn. split; [exact (Hyes eq_refl)|apply same_refl].
      + exists s, (cgo t (FOff FUser (bkt k))), [(CFind k, RFound None)]. split; [st; rewrite Ho; reflexivity|]. kgo; [reflexivity|]. cbn. split; [exact (Hno eq_refl)|apply same_refl].
    - destruct o.
      + exists s, (cgo t (FVal FIns1 (bkt (kf v)))), [(CInsert v, RNotInserted)]. split; [st; rewrite Ho; reflexivity|]. kgo; [split; [reflexivity|exact (Hpre eq_refl)]|]. cbn. split; [|apply same_refl]. destruct (Hyes eq_refl) as (v' & A & B). exists (bkt (kf v)), v'. auto.
      + ev0 s (cgo t (FOff FIns1 (bkt (kf v)))); [rewrite Ho; reflexivity|]. kgo; [split; [reflexivity|intros _; exact Ho]|exact Logic.I].
    - destruct o; [ev0 s (cgo t (FVal FInsB (bkt (kf v))))|ev0 s (cgo t (FOff FInsB (bkt (kf v))))]; [rewrite Ho; reflexivity| |rewrite Ho; reflexivity|].
      + kgo; [split; [reflexivity|exact (Hpre eq_refl)]|exact Logic.I].
      + kgo; [split; [reflexivity|exact Ho]|exact Logic.I].
    - match goal with H : filled _ _ _ _ _ |- _ => destruct H as [F1 F2] end. assert (o = true) as -> by congruence.
      ev0 s (cgo t (FVal (FInsL (bkt (kf v)) (bkt (kf v))) (bkt (kf v)))); [rewrite Ho; reflexivity|]. kgo; [repeat (split; [reflexivity|]); exact (Hpre eq_refl)|exact Logic.I].
    - destruct o.
      + ev0 s (cgo t (FVal FEr1 (bkt k))); [rewrite Ho; reflexivity|]. kgo; [split; [reflexivity|exact (Hpre eq_refl)]|exact Logic.I].
      + exists s, (cgo t (FOff FEr1 (bkt k))), [(CErase k, RErased false)]. split; [st; rewrite Ho; reflexivity|]. kgo; [reflexivity|]. cbn. split; [exact (Hno eq_refl)|apply same_refl].
    - destruct o; [ev0 s (cgo t (FVal (FErB (bkt k)) (bkt k)))|ev0 s (cgo t (FOff (FErB (bkt k)) (bkt k)))]; [rewrite Ho; reflexivity| |rewrite Ho; reflexivity|].
      + kgo; [repeat (split; [reflexivity|]); split; [exact (Hpre eq_refl)|exact Ho]|exact Logic.I].
      + kgo; [split; reflexivity|exact Logic.I].
    (* FVal *)
    - match goal with H : haskey _ _ _ _ _ |- _ => destruct H as (v' & Hv' & Hk') end. ev0 s (cfinish t (CFind k) (RFound (Some (bkt k)))); [rewrite Hv', Hk'; reflexivity|]. kfin.
    - match goal with H : haskey _ _ _ _ _ |- _ => destruct H as (v' & Hv' & Hk') end. ev0 s (cfinish t (CInsert v) RNotInserted); [rewrite Hv', Hk'; reflexivity|]. kfin.
    - match goal with H : haskey _ _ _ _ _ |- _ => destruct H as (v' & Hv' & Hk') end. ev0 s (cgo t (IUnlB None)); [rewrite Hv', Hk'; reflexivity|]. kgo; exact Logic.I.
    - match goal with H : haskey _ _ _ _ _ |- _ => destruct H as (v' & Hv' & Hk') end. ev0 s (cgo t (IUnlL (bkt (kf v)) None)); [rewrite Hv', Hk'; reflexivity|]. kgo; [reflexivity|exact Logic.I].
    - match goal with H : haskey _ _ _ _ _ |- _ => destruct H as (v' & Hv' & Hk') end. ev0 s (cgo t (XLockB (bkt k))); [rewrite Hv', Hk'; cbn [after_find]; rewrite bool_decide_true by reflexivity; reflexivity|]. kgo; [reflexivity|exact Logic.I].
    - match goal with H : haskey _ _ _ _ _ |- _ => pose proof H as Hhk; destruct H as (v' & Hv' & Hk') end. ev0 s (cgo t (XResetB (bkt k))); [rewrite Hv', Hk'; cbn [after_find]; rewrite bool_decide_true by reflexivity; reflexivity|]. kgo; [split; [reflexivity|split; [exact Hhk|assumption]]|exact Logic.I].
    (* FOff *)
    - ev0 s (cfinish t (CFind k) (RFound None)); [rewrite Hoff; reflexivity|]. kfin.
    - ev0 s (cgo t IOcc); [rewrite Hoff; reflexivity|]. kgo; [assumption|exact Logic.I].
    - ev0 s (cgo t IOccB); [rewrite Hoff; reflexivity|]. kgo; [assumption|exact Logic.I].
    - ev0 s (cfinish t (CErase k) (RErased false)); [rewrite Hoff; reflexivity|]. kfin.
    - ev0 s (cgo t (XUnlB (bkt k) false)); [rewrite Hoff; reflexivity|]. kgo; [reflexivity|exact Logic.I].
    (* EOff *)
    - ev0 s (cgo t (ILockL (bkt (kf v)))); [rewrite Hoff; reflexivity|]. kgo; [split; [reflexivity|assumption]|exact Logic.I].
    - ev0 s (cgo t (FOcc (FInsL (bkt (kf v)) (bkt (kf v))) (bkt (kf v)))); [rewrite Hoff; reflexivity|]. kgo; [repeat (split; [reflexivity|]); assumption|exact Logic.I].
    (* IOcc *)
    - destruct o.
      + ev0 s (cgo t (EOff EIns1 (bkt (kf v)))); [rewrite Ho; reflexivity|]. kgo; [|exact Logic.I]. split; [reflexivity|]. split; [|exact Ho]. intros Her. specialize (Htk Her). congruence.
      + ev0 s (cgo t ILockB); [rewrite Ho; reflexivity|]. kgo; exact Logic.I.
    - destruct l.
      + ev0 s (cgo t UFullCheck); [rewrite Hl; reflexivity|]. kgo; exact Logic.I.
      + ev0 (put_lock s (bkt (kf v)) true) (cgo t (FOcc FInsB (bkt (kf v)))); [rewrite Hl; reflexivity|]. klock; reflexivity.
    - ev0 s (cgo t IConB); [rewrite Htk; reflexivity|]. kgo; [exact Htk|exact Logic.I].
    - ev0 (put_value s (bkt (kf v)) (Some v)) (cgo t ICntB); [rewrite Hw; reflexivity|]. cbn [fmap list_fmap]. rewrite app_nil_r. exact (step_con kf hash keq bc E HP progs s0 Hsep s ls h i t v rest I Hi Ep Epc).
    - ev0 (put_count s (c_count s + 1)) (cgo t ISetB); [reflexivity|]. kcnt. split; assumption.
    - exists (put_occ s (bkt (kf v)) true), (cgo t (IUnlB (Some (bkt (kf v))))), [(CInsert v, RInserted (bkt (kf v)))]. split; [st; rewrite Ho; reflexivity|]. exact (step_set kf hash keq bc E HP progs s0 Hsep s ls h i t v rest I Hi Ep Epc).
    - ev0 (put_lock s (bkt (kf v)) false) (cfinish t (CInsert v) (RInserted (bkt (kf v)))); [rewrite Hl; reflexivity|]. kufin.
    - ev0 (put_lock s (bkt (kf v)) false) (cgo t UFullCheck); [rewrite Hl; reflexivity|]. kunl; exact Logic.I.
    (* ILockL *)
    - destruct l.
      + ev0 s (cgo t UFullCheck); [rewrite Hl; reflexivity|]. kgo; exact Logic.I.
      + ev0 (put_lock s (bkt (kf v)) true) (cgo t (EOff (EIns2 (bkt (kf v))) (bkt (kf v)))); [rewrite Hl; reflexivity|]. klock. repeat (split; [reflexivity|]). assumption.
    - ev0 (put_lock s (bkt (kf v)) false) (cgo t UFullCheck); [rewrite Hl; reflexivity|]. kunl; exact Logic.I.
    (* erase *)
    - destruct l.
      + ev0 s (cgo t (FOcc FEr1 (bkt k))); [rewrite Hl; reflexivity|]. kgo; [reflexivity|exact Logic.I].
      + ev0 (put_lock s (bkt k) true) (cgo t (FOcc (FErB (bkt k)) (bkt k))); [rewrite Hl; reflexivity|]. klock. split; reflexivity.
    - exists (put_occ s (bkt k) false), (cgo t (XCntB (bkt k))), [(CErase k, RErased true)]. split; [st; rewrite Ho; reflexivity|]. exact (step_reset kf hash keq bc E HP progs s0 Hsep s ls h i t k rest I Hi Ep Epc).
    - ev0 (put_count s (c_count s - 1)) (cgo t (XDesB (bkt k))); [reflexivity|]. kcnt. split; [reflexivity|assumption].
    - match goal with H : haskey _ _ _ _ _ |- _ => destruct H as (v' & Hv' & Hk') end. exists s, (cgo t (XUnlB (bkt k) true)), []. split; [unfold estep; rewrite Epc, Ep, Hv'; reflexivity|]. kgo; [reflexivity|exact Logic.I].
    - destruct ok.
      + ev0 (put_lock s (bkt k) false) (cfinish t (CErase k) (RErased true)); [rewrite Hl; reflexivity|]. kufin.
      + ev0 (put_lock s (bkt k) false) (cgo t (FOcc FEr1 (bkt k))); [rewrite Hl; reflexivity|]. kunl; reflexivity.
  Qed.

  (** *** the start and the end of a kernel *)
  Lemma sinv_start : sinv s0 (c_start progs) [].
  Proof using HP H0 Hsep.
    pose proof H0 as (L & Hlk & Hval & Hin & Hc & Hfree & Hcl).
    assert (Hst : forall i t, c_start progs !! i = Some t -> exists prog, progs !! i = Some prog /\ t = {| c_prog := prog; c_pc := UIdle; c_log := [] |}).
    { intros i t Hi. unfold c_start in Hi. rewrite list_lookup_fmap in Hi. destruct (progs !! i) as [prog|]; [|discriminate]. injection Hi as <-. eauto. }
    assert (Hno : forall i t b, c_start progs !! i = Some t -> held kf hash bc t = Some b -> False).
    { intros i t b Hi Hb. destruct (Hst i t Hi) as (prog & _ & ->). unfold held in Hb. cbn in Hb. destruct prog; discriminate. }
    split; try reflexivity; try exact L; try exact Hval.
    - intros p v k He Uk Hb. destruct Hsep as (S1 & _). apply (proj2 (S1 k p Uk ltac:(rewrite <- Hb; apply (bk_bucket hash keq bc E HP)))). exact He.
    - intros p v k He Uk Hk. pose proof (Hin p v He) as Hr. rewrite (bk_keq hash keq bc E HP _ _ Hk) in Hr. inversion Hr as [|? y ? (o & H1 & H2 & _)]; [reflexivity|]. subst. exfalso. apply H2.
      pose proof (off_zero kf hash keq bc E HP progs s0 Hsep k Uk) as Hz. congruence.
    - exact Hin.
    - intros i t op Hi Ho. destruct (Hst i t Hi) as (prog & Hp & ->). exists prog. auto.
    - intros i t Hi. destruct (Hst i t Hi) as (prog & _ & ->). unfold tok. cbn. destruct prog as [|[]]; cbn; auto.
    - intros i t b Hi Hb. destruct (Hno i t b Hi Hb).
    - intros i j t t' b Hi Hj Hb. destruct (Hno i t b Hi Hb).
    - intros b Hb. destruct (Hlk b Hb).
    - rewrite (sumZ_zero counting); [rewrite Hc; lia|]. intros t Ht. apply elem_of_list_lookup in Ht as [i Hi]. destruct (Hst i t Hi) as (prog & _ & ->). reflexivity.
    - exact (same_refl _).
    - intros x Hx. inversion Hx.
    - intros i t Hi. destruct (Hst i t Hi) as (prog & _ & ->). unfold pend. cbn. destruct prog; reflexivity.
  Qed.
  Lemma sinv_accounts s ls h : sinv s ls h -> accounts_all ls h.
  Proof.
    intros I. split; [exact (s_idx _ _ _ _ _ _ _ _ _ _ I)|]. intros i t Hi. rewrite (s_log _ _ _ _ _ _ _ _ _ _ I _ _ Hi). pose proof (s_thr _ _ _ _ _ _ _ _ _ _ I _ _ Hi) as Ht.
    unfold tok, pend in *. destruct (c_prog t) as [|op rest]; [left; apply app_nil_r|]. destruct (c_pc t) as [| | |c j|c j|c j|c j|c j|c j|c j p|c j p| | | | | | |r|e|e q|e p|e p|e p|e p|e p|e r|p|p|p|p|p ok|p q|p q|p|p q|p q|p q o'|p q o'|p q|p q|p q|p q x|p q ok|q ok];
      try (destruct c); try (destruct r); try (destruct ok); try (left; apply app_nil_r; fail); right; eexists op, rest, _; (split; [discriminate|split; reflexivity]).
  Qed.
  Lemma sinv_visited past s ls : visited step (s0, c_start progs) past (s, ls) -> exists h, sinv s ls h /\ forall c1, c1 ∈ past -> exists ha hb, h = ha ++ hb /\ accounts_all c1.2 ha.
  Proof using HP H0 Hsep.
    intros HV. remember (s, ls) as c eqn:Ec. revert s ls Ec. induction HV as [|past c c' HV IH Hst]; intros s ls Ec.
    - injection Ec as <- <-. exists []. split; [exact sinv_start|]. intros c1 Hc1. inversion Hc1.
    - subst c'. inversion Hst as [s1 ls1 i t s2 t2 Hi Hs Ec1 Ec2]. subst. destruct (IH s1 ls1 eq_refl) as (h & I & Hcut).
      assert (Hp : c_prog t <> []). { intros Ep. unfold estep, ustep in Hs. rewrite Ep in Hs. destruct (c_pc t); discriminate. }
      destruct (step_all s1 ls1 h i t I Hi Hp) as (s' & t' & evl & Hs' & I'). rewrite Hs in Hs'. injection Hs' as <- <-. exists (h ++ ((fun x => (i, x)) <$> evl)). split; [exact I'|].
      intros c1 Hc1. apply elem_of_cons in Hc1 as [-> |Hc1]; [exists h; eexists; split; [reflexivity|]; exact (sinv_accounts _ _ _ I)|].
      destruct (Hcut c1 Hc1) as (ha & hb & -> & Ha). exists ha, (hb ++ ((fun x => (i, x)) <$> evl)). rewrite app_assoc. auto.
  Qed.
  Lemma sinv_rest s ls h : sinv s ls h -> c_quiescent ls -> srest kf hash bc E s.
  Proof using H0.
    intros I Hq. pose proof H0 as (_ & _ & _ & _ & _ & (x & Hx & Hfx) & Hcl).
    split; [exact (s_len _ _ _ _ _ _ _ _ _ _ I)|]. split.
    { intros p Hp. destruct (s_lock _ _ _ _ _ _ _ _ _ _ I _ Hp) as (i & t & Hi & Hh). unfold held in Hh. rewrite (Hq t (elem_of_list_lookup_2 _ _ _ Hi)) in Hh. destruct (c_prog t); discriminate. }
    split; [exact (s_val _ _ _ _ _ _ _ _ _ _ I)|]. split.
    { intros p v He. pose proof (s_in _ _ _ _ _ _ _ _ _ _ I p v He) as Hr. eapply rtc_subrel; [|exact Hr]. intros a b' (o & A & B). exists o. rewrite (s_off _ _ _ _ _ _ _ _ _ _ I). auto. }
    split; [|split; [exists x; split; [exact Hx|rewrite (s_hi _ _ _ _ _ _ _ _ _ _ I) by exact Hx; exact Hfx]|rewrite (s_ex _ _ _ _ _ _ _ _ _ _ I); exact Hcl]].
    rewrite (s_cnt _ _ _ _ _ _ _ _ _ _ I), (sumZ_zero counting); [lia|]. intros t Ht. unfold counting. rewrite (Hq t Ht). reflexivity.
  Qed.
End top.
