(** The order of the elements: values by the order in which their pushes and pops claim slots. *)
From Verif Require Import Base Conc SlotModel SlotSpec SlotProofs FifoSpec.

Section hist.
  Context {T : Type}.
  Lemma calls_by_app i (h1 h2 : list (nat * (qop T * qres T))) : calls_by i (h1 ++ h2) = calls_by i h1 ++ calls_by i h2.
  Proof. unfold calls_by. rewrite filter_app, fmap_app. reflexivity. Qed.
  Lemma calls_by_one i j (x : qop T * qres T) : calls_by i [(j, x)] = if decide (j = i) then [x] else [].
  Proof. unfold calls_by. rewrite filter_cons. cbn. destruct (decide (j = i)); reflexivity. Qed.
  Lemma fifo_snoc n l1 (M : list T) h l2 M2 j x l3 M3 : fifo n l1 M h l2 M2 -> fifo_call n l2 M2 x l3 M3 -> fifo n l1 M (h ++ [(j, x)]) l3 M3.
  Proof.
    revert l1 M. induction h as [|[i y] h IH]; intros l1 M; cbn [fifo app].
    - intros [-> ->] Hc. exists l3, M3. auto.
    - intros (la & Ma & H1 & H2) Hc. exists la, Ma. split; [exact H1|]. apply IH; assumption.
  Qed.
  Lemma lifo_snoc cap k (M : list T) h M2 j x M3 : lifo cap k M h M2 -> lifo_call cap k M2 x M3 -> lifo cap k M (h ++ [(j, x)]) M3.
  Proof.
    revert M. induction h as [|[i y] h IH]; intros M; cbn [lifo app].
    - intros -> Hc. exists M3. auto.
    - intros (Ma & H1 & H2) Hc. exists Ma. split; [exact H1|]. apply IH; assumption.
  Qed.
  Lemma zip_snoc {A B} (l1 : list A) (l2 : list B) a b rest : length l1 = length l2 -> zip (l1 ++ a :: rest) (l2 ++ [b]) = zip l1 l2 ++ [(a, b)].
  Proof. revert l2. induction l1 as [|x l1 IH]; intros [|y l2] HL; try discriminate; [destruct rest; reflexivity|]. cbn. f_equal. apply IH. cbn in HL. lia. Qed.
  Lemma zip_prefix {A B} (l1 : list A) (l2 : list B) rest : length l1 = length l2 -> zip (l1 ++ rest) l2 = zip l1 l2.
  Proof. revert l2. induction l1 as [|x l1 IH]; intros [|y l2] HL; try discriminate; [destruct rest; reflexivity|]. cbn. f_equal. apply IH. cbn in HL. lia. Qed.
End hist.

(** facts about a state from the invariant of SlotProofs.v *)
Record sfacts {T C} (cap : nat) (s : qshared T C) (ls : list (qthread T)) : Prop := {
  f_len : length (q_data s) = cap /\ length (q_occ s) = cap /\ length (q_locks s) = cap;
  f_tok : forall t, t ∈ ls -> tok cap t;
  f_read : forall t p y, t ∈ ls -> q_pc t = QDestroy p y -> lkd (q_data s) p = Some y;
  f_occ : forall p, (p < cap)%nat -> lk (q_occ s) p = true -> lkd (q_data s) p <> None
}.
Lemma inv_facts {T C} cap m cok w0 (s : qshared T C) ls : inv (T:=T) (C:=C) cap m cok w0 s ls -> sfacts cap s ls.
Proof.
  intros I. split; [exact (i_len _ _ _ _ _ _ I)|exact (i_tok _ _ _ _ _ _ I)| |].
  - intros t p y Ht Hpc. pose proof (i_loc _ _ _ _ _ _ I t Ht) as H. unfold local_ok in H. rewrite Hpc in H. apply H.
  - intros p Hp Ho Hd. pose proof (i_live _ _ _ _ _ _ I p Hp) as H. rewrite Hd, Ho in H. cbn in H. pose proof (sumZ_nonneg (lv p) ls (fun t _ => lv_nonneg p t)). lia.
Qed.

Section core.
  Context {T C : Type} (ctl : C -> qkind -> nat -> cres C) (cap : nat) (idx slot : nat -> nat).
  Context (Hidx : forall k, (k < cap)%nat -> idx (slot k) = k /\ (slot k < cap)%nat).
  Context (progs : list (list (qop T))).
  Notation step := (qstep (T:=T) ctl).
  Implicit Types (s : qshared T C) (ls : list (qthread T)) (W : list T) (P : list nat) (H : list (nat * (qop T * qres T))).

  Definition claimed_at (pc : qpc T) : option nat :=
    match pc with QIdle | QCtl _ => None | QTry p | QCheck p | QConstruct p | QSet p | QReset p | QRead p | QDestroy p _ | QUnlock p _ => Some p end.
  (** a pop that has found its slot empty so far *)
  Definition waiting_at (p : nat) (pc : qpc T) : Prop := pc = QTry p \/ pc = QCheck p \/ pc = QUnlock p None.
  (** the running call as it appears in the order of calls *)
  Definition emitted W (t : qthread T) : list (qop T * qres T) :=
    match q_prog t, claimed_at (q_pc t) with
    | QPush k x :: _, Some p => [(QPush k x, Pushed x)]
    | QPop k :: _, Some p => match W !! idx p with Some y => [(QPop k, Popped y)] | None => [] end
    | _, _ => []
    end.
  Definition claim_ok W P (j : nat) (t : qthread T) : Prop :=
    match q_prog t, claimed_at (q_pc t) with
    | QPush _ x :: _, Some p => W !! idx p = Some x
    | QPop _ :: _, Some p => P !! idx p = Some j /\ forall y, q_pc t = QUnlock p (Some (Popped y)) -> W !! idx p = Some y
    | _, _ => True
    end.
  Definition thr W P H (j : nat) (t : qthread T) : Prop :=
    exists past, progs !! j = Some (past ++ q_prog t) /\ length past = length (q_log t) /\ calls_by j H = zip past (q_log t) ++ emitted W t /\ claim_ok W P j t.
  (** [W]: the values in the order in which their pushes claimed slots, after the initial ones; [P]: the threads whose pops claimed slots, in that order *)
  Record core s ls W P H : Prop := {
    k_len : length ls = length progs;
    k_data : forall p x, (p < cap)%nat -> lkd (q_data s) p = Some x -> W !! idx p = Some x;
    k_thr : forall j t, ls !! j = Some t -> thr W P H j t;
    k_wait : forall k j, (length W <= k)%nat -> P !! k = Some j -> exists t op rest, ls !! j = Some t /\ q_prog t = QPop op :: rest /\ waiting_at (slot k) (q_pc t);
    k_dom : forall x, x ∈ H -> (x.1 < length progs)%nat;
    k_bnd : (length W <= cap)%nat /\ (length P <= cap)%nat
  }.

  (** steps that do not touch the counters *)
  Lemma core_local s ls W P H i t s' t' p : sfacts cap s ls -> core s ls W P H -> ls !! i = Some t -> claimed_at (q_pc t) = Some p -> step i s t = Some (s', t') ->
    core s' (<[i := t']> ls) W P H /\ q_c s' = q_c s /\ (q_prog t' = q_prog t /\ claimed_at (q_pc t') = Some p \/ q_prog t' = tail (q_prog t) /\ q_pc t' = QIdle).
  Proof using Hidx.
    intros F K Hi Hcl Hst. pose proof (elem_of_list_lookup_2 _ _ _ Hi) as Hin. pose proof (lookup_lt_Some _ _ _ Hi) as Hlt.
    destruct (f_len _ _ _ F) as (L1 & L2 & L3). pose proof (f_tok _ _ _ F t Hin) as [_ Htk]. destruct (k_thr _ _ _ _ _ K i t Hi) as (past & Hpr & HL & HC & HO).
    assert (Hp : (p < cap)%nat) by (destruct (q_pc t) as [|?|?|?|?|?|?|?|? ?|? [?|]]; cbn in Hcl; try discriminate; injection Hcl as ->; apply Htk).
    unfold qstep in Hst. destruct (q_prog t) as [|op rest] eqn:Epr; [discriminate|].
    (* a step inside the call *)
    assert (INS : forall s1 pc1, s' = s1 -> t' = goto t pc1 -> q_c s1 = q_c s -> claimed_at pc1 = Some p ->
      (forall q x, (q < cap)%nat -> lkd (q_data s1) q = Some x -> W !! idx q = Some x) ->
      (forall y, pc1 = QUnlock p (Some (Popped y)) -> pushing t = false -> W !! idx p = Some y) ->
      (waiting_at p (q_pc t) -> pushing t = false -> (length W <= idx p)%nat -> waiting_at p pc1) ->
      core s' (<[i := t']> ls) W P H /\ q_c s' = q_c s /\ (q_prog t' = op :: rest /\ claimed_at (q_pc t') = Some p \/ q_prog t' = tail (op :: rest) /\ q_pc t' = QIdle)).
    { intros s1 pc1 -> -> Hc Hcl1 Hd Hpop Hw. split; [|split; [exact Hc|left; split; [cbn; exact Epr|exact Hcl1]]]. split.
      - rewrite insert_length. apply (k_len _ _ _ _ _ K).
      - exact Hd.
      - intros j u Hj. destruct (decide (i = j)) as [<-|Hne]; [|rewrite list_lookup_insert_ne in Hj by exact Hne; exact (k_thr _ _ _ _ _ K j u Hj)].
        rewrite list_lookup_insert in Hj by exact Hlt. injection Hj as <-. exists past. cbn [q_prog q_log goto]. rewrite Epr. split; [exact Hpr|]. split; [exact HL|]. split.
        + rewrite HC. f_equal. unfold emitted. cbn [q_prog q_pc goto]. rewrite Epr, Hcl, Hcl1. reflexivity.
        + unfold claim_ok in *. cbn [q_prog q_pc goto]. rewrite Epr in *. rewrite Hcl in HO. rewrite Hcl1. destruct op as [k x|k]; [exact HO|]. split; [apply HO|]. intros y Hy. apply (Hpop y Hy). unfold pushing. rewrite Epr. reflexivity.
      - intros k j Hk Hj. destruct (k_wait _ _ _ _ _ K k j Hk Hj) as (u & o & rs & U1 & U2 & U3). destruct (decide (i = j)) as [<-|Hne].
        + rewrite Hi in U1. injection U1 as <-. exists (goto t pc1), o, rs. split; [apply list_lookup_insert; exact Hlt|]. split; [exact U2|]. cbn [q_pc goto].
          assert (Eq : slot k = p) by (destruct U3 as [U3|[U3|U3]]; rewrite U3 in Hcl; injection Hcl as ->; reflexivity).
          assert (Hkc : (k < cap)%nat) by (apply lookup_lt_Some in Hj; pose proof (k_bnd _ _ _ _ _ K); lia). rewrite Eq in *. apply Hw; [exact U3|unfold pushing; rewrite U2; reflexivity|].
          destruct (Hidx k Hkc) as [HI _]. rewrite Eq in HI. lia.
        + exists u, o, rs. rewrite list_lookup_insert_ne by exact Hne. auto.
      - exact (k_dom _ _ _ _ _ K).
      - exact (k_bnd _ _ _ _ _ K). }
    pose proof (k_data _ _ _ _ _ K) as KD.
    destruct (q_pc t) as [|n|q|q|q|q|q|q|q y|q r] eqn:Epc; cbn in Hcl; try discriminate; injection Hcl as ->.
    - rewrite (lk_Some (q_locks s) p) in Hst by lia. destruct (lk (q_locks s) p); injection Hst as <- <-.
      + apply (INS s (QTry p)); auto. * destruct t; cbn in *; subst; reflexivity. * intros y [=]. 
      + apply (INS (with_lock s p true) (QCheck p)); auto. * intros y [=]. * intros _ _ _. right. left. reflexivity.
    - rewrite (lk_Some (q_occ s) p) in Hst by lia. destruct op as [k x|k]; injection Hst as <- <-.
      + apply (INS s (if lk (q_occ s) p then QUnlock p None else QConstruct p)); auto; [destruct (lk (q_occ s) p); reflexivity|destruct (lk (q_occ s) p); intros y [=]|].
        unfold pushing. rewrite Epr. discriminate.
      + apply (INS s (if lk (q_occ s) p then QReset p else QUnlock p None)); auto; [destruct (lk (q_occ s) p); reflexivity|destruct (lk (q_occ s) p); intros y [=]|].
        intros _ _ Hw. destruct (lk (q_occ s) p) eqn:Eo; [|right; right; reflexivity]. exfalso. pose proof (f_occ _ _ _ F p Hp Eo) as Hd. destruct (lkd (q_data s) p) as [x|] eqn:Ed; [|congruence].
        pose proof (lookup_lt_Some _ _ _ (KD p x Hp Ed)). lia.
    - destruct op as [k x|k]; [|discriminate]. injection Hst as <- <-. unfold claim_ok in HO. rewrite Epr, Epc in HO. cbn in HO. apply (INS (with_data s p (Some x)) (QSet p)); auto.
      + intros q z Hq. cbn [q_data with_data]. rewrite lkd_insert by lia. destruct (decide (q = p)) as [->|]; [intros [= <-]; exact HO|apply KD; exact Hq].
      + intros y [=].
      + unfold pushing. rewrite Epr. discriminate.
    - destruct op as [k x|k]; [|discriminate]. injection Hst as <- <-. apply (INS (with_occ s p true) (QUnlock p (Some (Pushed x)))); auto. + intros y [=]. + unfold pushing. rewrite Epr. discriminate.
    - injection Hst as <- <-. apply (INS (with_occ s p false) (QRead p)); auto. + intros y [=]. + intros [?|[?|?]]; discriminate.
    - destruct (q_data s !! p) as [[y|]|]; try discriminate. injection Hst as <- <-. apply (INS s (QDestroy p y)); auto. + intros z [=]. + intros [?|[?|?]]; discriminate.
    - injection Hst as <- <-. apply (INS (with_data s p None) (QUnlock p (Some (Popped y)))); auto.
      + intros q z Hq. cbn [q_data with_data]. rewrite lkd_insert by lia. destruct (decide (q = p)) as [->|]; [discriminate|apply KD; exact Hq].
      + intros z [= <-] _. apply KD; [exact Hp|]. exact (f_read _ _ _ F t p y Hin Epc).
      + intros [?|[?|?]]; discriminate.
    - destruct r as [r|].
      2: { injection Hst as <- <-. apply (INS (with_lock s p false) (QTry p)); auto. - intros y [=]. - intros _ _ _. left. reflexivity. }
      injection Hst as <- <-. split; [|split; [reflexivity|right; split; [cbn; rewrite Epr; reflexivity|reflexivity]]]. split.
      + rewrite insert_length. apply (k_len _ _ _ _ _ K).
      + exact KD.
      + intros j u Hj. destruct (decide (i = j)) as [<-|Hne]; [|rewrite list_lookup_insert_ne in Hj by exact Hne; exact (k_thr _ _ _ _ _ K j u Hj)].
        rewrite list_lookup_insert in Hj by exact Hlt. injection Hj as <-. exists (past ++ [op]). cbn [q_prog q_log finish]. rewrite Epr. cbn [tail]. split; [rewrite <- app_assoc; exact Hpr|].
        split; [rewrite !app_length, HL; reflexivity|]. split; [|unfold claim_ok; cbn [q_prog q_pc finish]; rewrite Epr; destruct (tail (op :: rest)) as [|[]]; exact Logic.I].
        assert (E : emitted W (finish t r) = []) by (unfold emitted; cbn [q_prog q_pc finish]; rewrite Epr; destruct (tail (op :: rest)) as [|[]]; reflexivity).
        rewrite E, app_nil_r, HC, zip_snoc by exact HL. f_equal. destruct Htk as (_ & _ & Htk). unfold emitted, claim_ok in *. rewrite Epr, Epc in *. cbn [claimed_at] in *.
        destruct r as [z|y| |]; try contradiction.
        * destruct Htk as (k & rs & [= -> ->]). reflexivity.
        * destruct op as [k x|k]; [unfold pushing in Htk; rewrite Epr in Htk; discriminate|]. rewrite (proj2 HO y eq_refl). reflexivity.
      + intros k j Hk Hj. destruct (k_wait _ _ _ _ _ K k j Hk Hj) as (u & o & rs & U1 & U2 & U3). destruct (decide (i = j)) as [<-|Hne].
        * rewrite Hi in U1. injection U1 as <-. rewrite Epc in U3. destruct U3 as [U3|[U3|U3]]; discriminate.
        * exists u, o, rs. rewrite list_lookup_insert_ne by exact Hne. auto.
      + exact (k_dom _ _ _ _ _ K).
      + exact (k_bnd _ _ _ _ _ K).
  Qed.

  Lemma wait_other s ls W P H i t t' : core s ls W P H -> ls !! i = Some t -> claimed_at (q_pc t) = None ->
    forall k j, (length W <= k)%nat -> P !! k = Some j -> exists u op rest, <[i := t']> ls !! j = Some u /\ q_prog u = QPop op :: rest /\ waiting_at (slot k) (q_pc u).
  Proof.
    intros K Hi Hn k j Hk Hj. destruct (k_wait _ _ _ _ _ K k j Hk Hj) as (u & o & rs & U1 & U2 & U3). exists u, o, rs. split; [|auto].
    rewrite list_lookup_insert_ne; [exact U1|]. intros <-. rewrite Hi in U1. injection U1 as <-. destruct U3 as [U3|[U3|U3]]; rewrite U3 in Hn; discriminate.
  Qed.
  (** steps on the counters that claim nothing *)
  Lemma core_go s ls W P H i t n c : core s ls W P H -> ls !! i = Some t -> claimed_at (q_pc t) = None -> core (with_c s c) (<[i := goto t (QCtl n)]> ls) W P H.
  Proof.
    intros K Hi Hn. pose proof (lookup_lt_Some _ _ _ Hi) as Hlt. split.
    - rewrite insert_length. apply (k_len _ _ _ _ _ K).
    - exact (k_data _ _ _ _ _ K).
    - intros j u Hj. destruct (decide (i = j)) as [<-|Hne]; [|rewrite list_lookup_insert_ne in Hj by exact Hne; exact (k_thr _ _ _ _ _ K j u Hj)].
      rewrite list_lookup_insert in Hj by exact Hlt. injection Hj as <-. destruct (k_thr _ _ _ _ _ K i t Hi) as (past & Hpr & HL & HC & HO). exists past. cbn [q_prog q_log goto].
      split; [exact Hpr|]. split; [exact HL|]. unfold emitted, claim_ok in *. cbn [q_prog q_pc goto claimed_at] in *. rewrite Hn in *. split; [rewrite HC; f_equal; destruct (q_prog t) as [|[]]; reflexivity|destruct (q_prog t) as [|[]]; exact Logic.I].
    - apply (wait_other s ls W P H i t); assumption.
    - exact (k_dom _ _ _ _ _ K).
    - exact (k_bnd _ _ _ _ _ K).
  Qed.
  (** a rejected call *)
  Lemma core_reject s ls W P H i t op rest r c : core s ls W P H -> ls !! i = Some t -> claimed_at (q_pc t) = None -> q_prog t = op :: rest ->
    core (with_c s c) (<[i := finish t r]> ls) W P (H ++ [(i, (op, r))]).
  Proof.
    intros K Hi Hn Epr. pose proof (lookup_lt_Some _ _ _ Hi) as Hlt. split.
    - rewrite insert_length. apply (k_len _ _ _ _ _ K).
    - exact (k_data _ _ _ _ _ K).
    - intros j u Hj. destruct (decide (i = j)) as [<-|Hne].
      + rewrite list_lookup_insert in Hj by exact Hlt. injection Hj as <-. destruct (k_thr _ _ _ _ _ K i t Hi) as (past & Hpr & HL & HC & HO). exists (past ++ [op]). cbn [q_prog q_log finish]. rewrite Epr in *. cbn [tail].
        split; [rewrite <- app_assoc; exact Hpr|]. split; [rewrite !app_length, HL; reflexivity|]. rewrite calls_by_app, calls_by_one, decide_True by reflexivity. rewrite zip_snoc by exact HL.
        unfold emitted, claim_ok in *. cbn [q_prog q_pc finish]. rewrite Epr, Hn in *. cbn [tail claimed_at]. split; [|destruct rest as [|[]]; exact Logic.I].
        rewrite HC. destruct op; destruct rest as [|[]]; rewrite !app_nil_r; reflexivity.
      + rewrite list_lookup_insert_ne in Hj by exact Hne. destruct (k_thr _ _ _ _ _ K j u Hj) as (past & Hpr & HL & HC & HO). exists past. rewrite calls_by_app, calls_by_one, decide_False by exact Hne. rewrite app_nil_r. auto.
    - apply (wait_other s ls W P H i t); assumption.
    - intros x Hx. apply elem_of_app in Hx as [Hx|Hx]; [exact (k_dom _ _ _ _ _ K x Hx)|]. apply elem_of_list_singleton in Hx as ->. cbn. rewrite <- (k_len _ _ _ _ _ K). exact Hlt.
    - exact (k_bnd _ _ _ _ _ K).
  Qed.
  (** a pop claims its slot *)
  Lemma core_pop s ls W P H i t k rest c : core s ls W P H -> ls !! i = Some t -> claimed_at (q_pc t) = None -> q_prog t = QPop k :: rest -> (length P < cap)%nat ->
    core (with_c s c) (<[i := goto t (QTry (slot (length P)))]> ls) W (P ++ [i]) (H ++ match W !! length P with Some y => [(i, (QPop k, Popped y))] | None => [] end).
  Proof using Hidx ctl.
    intros K Hi Hn Epr HP. pose proof (lookup_lt_Some _ _ _ Hi) as Hlt. destruct (Hidx _ HP) as [HI _]. split.
    - rewrite insert_length. apply (k_len _ _ _ _ _ K).
    - exact (k_data _ _ _ _ _ K).
    - intros j u Hj. destruct (decide (i = j)) as [<-|Hne].
      + rewrite list_lookup_insert in Hj by exact Hlt. injection Hj as <-. destruct (k_thr _ _ _ _ _ K i t Hi) as (past & Hpr & HL & HC & HO). exists past. cbn [q_prog q_log goto]. split; [exact Hpr|]. split; [exact HL|].
        unfold emitted, claim_ok in *. cbn [q_prog q_pc goto claimed_at] in *. rewrite Epr, Hn in *. rewrite HI. split.
        * rewrite calls_by_app, HC. rewrite app_nil_r. f_equal. destruct (W !! length P); [rewrite calls_by_one, decide_True by reflexivity|]; reflexivity.
        * split; [rewrite lookup_app_r, Nat.sub_diag by lia; reflexivity|]. intros y [=].
      + rewrite list_lookup_insert_ne in Hj by exact Hne. destruct (k_thr _ _ _ _ _ K j u Hj) as (past & Hpr & HL & HC & HO). exists past. split; [exact Hpr|]. split; [exact HL|]. split.
        * rewrite calls_by_app, HC. destruct (W !! length P); [rewrite calls_by_one, decide_False by exact Hne|]; rewrite app_nil_r; reflexivity.
        * unfold claim_ok in *. destruct (q_prog u) as [|[]]; [exact HO|exact HO|]. destruct (claimed_at (q_pc u)); [|exact HO]. destruct HO as [HO1 HO2]. split; [apply lookup_app_l_Some; exact HO1|exact HO2].
    - intros k' j Hk Hj. destruct (decide (k' = length P)) as [->|Hne].
      + rewrite lookup_app_r, Nat.sub_diag in Hj by lia. injection Hj as <-. exists (goto t (QTry (slot (length P)))), k, rest. split; [apply list_lookup_insert; exact Hlt|]. split; [exact Epr|left; reflexivity].
      + assert (Hk2 : (k' < length P)%nat) by (apply lookup_lt_Some in Hj; rewrite app_length in Hj; cbn in Hj; lia). rewrite lookup_app_l in Hj by exact Hk2. apply (wait_other s ls W P H i t); assumption.
    - intros x Hx. apply elem_of_app in Hx as [Hx|Hx]; [exact (k_dom _ _ _ _ _ K x Hx)|]. destruct (W !! length P); [|inversion Hx]. apply elem_of_list_singleton in Hx as ->. cbn. rewrite <- (k_len _ _ _ _ _ K). exact Hlt.
    - rewrite app_length. cbn. pose proof (k_bnd _ _ _ _ _ K). lia.
  Qed.
  (** a push claims its slot *)
  Lemma core_push s ls W P H i t k x rest c : core s ls W P H -> ls !! i = Some t -> claimed_at (q_pc t) = None -> q_prog t = QPush k x :: rest -> (length W < cap)%nat ->
    exists H2, core (with_c s c) (<[i := goto t (QTry (slot (length W)))]> ls) (W ++ [x]) P (H ++ (i, (QPush k x, Pushed x)) :: H2) /\
      match P !! length W with Some j => exists k', H2 = [(j, (QPop k', Popped x))] | None => H2 = [] end.
  Proof using Hidx ctl.
    intros K Hi Hn Epr HW. pose proof (lookup_lt_Some _ _ _ Hi) as Hlt. destruct (Hidx _ HW) as [HI _].
    assert (Wlk : forall a y, W !! a = Some y -> (W ++ [x]) !! a = Some y) by (intros a y Hy; apply lookup_app_l_Some; exact Hy).
    assert (Wnone : forall a, a <> length W -> (W ++ [x]) !! a = W !! a).
    { intros a Ha. destruct (decide (a < length W)%nat); [apply lookup_app_l; assumption|]. rewrite !lookup_ge_None_2; [reflexivity|lia|rewrite app_length; cbn; lia]. }
    assert (Wx : (W ++ [x]) !! length W = Some x) by (rewrite lookup_app_r, Nat.sub_diag by lia; reflexivity).
    assert (Wnil : W !! length W = None) by (apply lookup_ge_None_2; lia).
    (* who gets the pop of this value *)
    set (e := fun (j : nat) (t0 : qthread T) => match q_prog t0 with QPop k1 :: _ => [(j, (QPop k1, Popped x))] | _ => ([] : list (nat * (qop T * qres T))) end).
    set (H2 := match P !! length W with Some j => match ls !! j with Some u => e j u | None => [] end | None => [] end).
    exists H2.
    assert (HE : match P !! length W with Some j => exists k', H2 = [(j, (QPop k', Popped x))] | None => H2 = [] end).
    { unfold H2. destruct (P !! length W) as [j|] eqn:EP; [|reflexivity]. destruct (k_wait _ _ _ _ _ K _ j (le_n _) EP) as (u & o & rs & U1 & U2 & U3). rewrite U1. unfold e. rewrite U2. eauto. }
    split; [|exact HE].
    assert (NI : forall j, P !! length W = Some j -> j <> i).
    { intros j EP ->. destruct (k_wait _ _ _ _ _ K _ i (le_n _) EP) as (u & o & rs & U1 & U2 & U3). rewrite Hi in U1. injection U1 as <-. rewrite Epr in U2. discriminate. }
    split.
    - rewrite insert_length. apply (k_len _ _ _ _ _ K).
    - intros p y Hp Hd. apply Wlk. exact (k_data _ _ _ _ _ K p y Hp Hd).
    - intros j u Hj. destruct (decide (i = j)) as [<-|Hne].
      + rewrite list_lookup_insert in Hj by exact Hlt. injection Hj as <-. destruct (k_thr _ _ _ _ _ K i t Hi) as (past & Hpr & HL & HC & HO). exists past. cbn [q_prog q_log goto]. split; [exact Hpr|]. split; [exact HL|].
        unfold emitted, claim_ok in *. cbn [q_prog q_pc goto claimed_at] in *. rewrite Epr, Hn in *. rewrite HI. split; [|exact Wx].
        change ((i, (QPush k x, Pushed x)) :: H2) with ([(i, (QPush k x, Pushed x))] ++ H2). rewrite !calls_by_app, calls_by_one, decide_True by reflexivity. rewrite HC, app_nil_r. f_equal.
        assert (E2 : calls_by i H2 = []); [|rewrite E2; reflexivity]. destruct (P !! length W) as [j|] eqn:EP; [|rewrite HE; reflexivity]. destruct HE as [k' ->]. rewrite calls_by_one, decide_False; [reflexivity|]. exact (NI j eq_refl).
      + rewrite list_lookup_insert_ne in Hj by exact Hne. destruct (k_thr _ _ _ _ _ K j u Hj) as (past & Hpr & HL & HC & HO). exists past. split; [exact Hpr|]. split; [exact HL|]. split.
        * change ((i, (QPush k x, Pushed x)) :: H2) with ([(i, (QPush k x, Pushed x))] ++ H2). rewrite !calls_by_app, calls_by_one, decide_False by exact Hne. rewrite HC. cbn [app]. rewrite <- app_assoc. f_equal.
          unfold emitted, claim_ok in *. destruct (q_prog u) as [|[k1 x1|k1] rs] eqn:Eu; destruct (claimed_at (q_pc u)) as [p|] eqn:Ec.
          1,2,4: cbn [app]; destruct (P !! length W) as [j'|] eqn:EP; [|rewrite HE; reflexivity]; destruct HE as [k' ->]; rewrite calls_by_one; destruct (decide (j' = j)) as [->|]; [|reflexivity];
             destruct (k_wait _ _ _ _ _ K _ j (le_n _) EP) as (u' & o & rs' & U1 & U2 & U3); rewrite Hj in U1; injection U1 as <-; rewrite Eu in U2; discriminate.
          -- (* a claimed push of another thread *)
             assert (E2 : calls_by j H2 = []); [|rewrite E2; reflexivity]. destruct (P !! length W) as [j'|] eqn:EP; [|rewrite HE; reflexivity]. destruct HE as [k' ->]. rewrite calls_by_one. destruct (decide (j' = j)) as [->|]; [|reflexivity].
             destruct (k_wait _ _ _ _ _ K _ j (le_n _) EP) as (u' & o & rs' & U1 & U2 & U3); rewrite Hj in U1; injection U1 as <-; rewrite Eu in U2; discriminate.
          -- destruct HO as [HO _]. destruct (decide (idx p = length W)) as [Ep|Ep].
             ++ rewrite Ep in *. rewrite Wnil, Wx. unfold H2. rewrite HO, Hj. unfold e. rewrite Eu, calls_by_one, decide_True by reflexivity. reflexivity.
             ++ rewrite (Wnone _ Ep). assert (E2 : calls_by j H2 = []); [|rewrite E2, app_nil_r; reflexivity]. destruct (P !! length W) as [j'|] eqn:EP; [|rewrite HE; reflexivity]. destruct HE as [k' ->]. rewrite calls_by_one. destruct (decide (j' = j)) as [->|]; [|reflexivity].
                destruct (k_wait _ _ _ _ _ K _ j (le_n _) EP) as (u' & o & rs' & U1 & U2 & U3); rewrite Hj in U1; injection U1 as <-.
                assert (p = slot (length W)) by (destruct U3 as [U3|[U3|U3]]; rewrite U3 in Ec; injection Ec as <-; reflexivity). subst p. congruence.
          -- cbn [app]. destruct (P !! length W) as [j'|] eqn:EP; [|rewrite HE; reflexivity]; destruct HE as [k' ->]; rewrite calls_by_one; destruct (decide (j' = j)) as [->|]; [|reflexivity].
             destruct (k_wait _ _ _ _ _ K _ j (le_n _) EP) as (u' & o & rs' & U1 & U2 & U3); rewrite Hj in U1; injection U1 as <-. destruct U3 as [U3|[U3|U3]]; rewrite U3 in Ec; discriminate.
        * unfold claim_ok in *. destruct (q_prog u) as [|[]]; [exact HO|destruct (claimed_at (q_pc u)); [apply Wlk; exact HO|exact HO]|]. destruct (claimed_at (q_pc u)); [|exact HO]. destruct HO as [HO1 HO2]. split; [exact HO1|]. intros y Hy. apply Wlk. exact (HO2 y Hy).
    - intros k' j Hk Hj. rewrite app_length in Hk. cbn in Hk. apply (wait_other s ls W P H i t); try assumption. lia.
    - intros y Hy. apply elem_of_app in Hy as [Hy|Hy]; [exact (k_dom _ _ _ _ _ K y Hy)|]. rewrite <- (k_len _ _ _ _ _ K). apply elem_of_cons in Hy as [-> |Hy]; [exact Hlt|].
      destruct (P !! length W) as [j|] eqn:EP; [|rewrite HE in Hy; inversion Hy]. destruct HE as [k' HE]. rewrite HE in Hy. apply elem_of_list_singleton in Hy as ->. cbn.
      destruct (k_wait _ _ _ _ _ K _ j (le_n _) EP) as (u & o & rs & U1 & _). exact (lookup_lt_Some _ _ _ U1).
    - rewrite app_length. cbn. pose proof (k_bnd _ _ _ _ _ K). lia.
  Qed.
  Lemma core_accounts s ls W P H : core s ls W P H -> accounts progs ls H.
  Proof.
    intros K. split; [exact (k_dom _ _ _ _ _ K)|]. intros i t prog Hi Hp. destruct (k_thr _ _ _ _ _ K i t Hi) as (past & Hpr & HL & HC & _). rewrite Hp in Hpr. injection Hpr as ->. rewrite zip_prefix by exact HL. rewrite HC.
    unfold emitted. destruct (q_prog t) as [|[k x|k] rest] eqn:Epr; destruct (claimed_at (q_pc t)) as [p|] eqn:Ec; try (left; apply app_nil_r).
    - right. exists (QPush k x), rest, (Pushed x). split; [intros E; rewrite E in Ec; discriminate|]. auto.
    - destruct (W !! idx p) as [y|]; [|left; apply app_nil_r]. right. exists (QPop k), rest, (Popped y). split; [intros E; rewrite E in Ec; discriminate|]. auto.
  Qed.
End core.
