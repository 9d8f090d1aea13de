(** Searching all orders of the calls of a run; two runs for which none is right. *)
From Verif Require Import Base Conc SlotModel SlotSpec VectorModel DequeModel DequeSpec FifoSpec.

Section passes_run.
  Context {T C : Type} (step : nat -> qshared T C -> qthread T -> option (qshared T C * qthread T)).
  Fixpoint run_past (past : list (qshared T C * list (qthread T))) (c : qshared T C * list (qthread T)) (sched : list nat) : option (list (qshared T C * list (qthread T)) * (qshared T C * list (qthread T))) :=
    match sched with
    | [] => Some (past, c)
    | i :: sched => match run step [i] c with Some c' => run_past (c :: past) c' sched | None => None end
    end.
  Lemma run_past_passes start sched : forall past c past' c', passes step start past c -> run_past past c sched = Some (past', c') -> passes step start past' c'.
  Proof.
    induction sched as [|i sched IH]; intros past c past' c' Hp H; cbn in H; [injection H as <- <-; exact Hp|].
    destruct c as [s ls]. cbn in H. destruct (ls !! i) as [t|] eqn:E1; [|discriminate]. destruct (step i s t) as [[s' t']|] eqn:E2; [|discriminate].
    refine (IH _ _ _ _ _ H). eapply pass_step; [exact Hp|]. econstructor; eassumption.
  Qed.
  Lemma run_past_mono sched : forall past c past' c' x, run_past past c sched = Some (past', c') -> x ∈ past -> x ∈ past'.
  Proof.
    induction sched as [|i sched IH]; intros past c past' c' x H Hx; cbn [run_past] in H; [injection H as <- <-; exact Hx|].
    destruct (run step [i] c) as [c1|]; [|discriminate]. apply (IH _ _ _ _ x H). right. exact Hx.
  Qed.
  Lemma run_past_start i sched past c past' c' : run_past past c (i :: sched) = Some (past', c') -> c ∈ past'.
  Proof. cbn [run_past]. destruct (run step [i] c) as [c1|]; [|discriminate]. intros H. apply (run_past_mono sched _ _ _ _ c H). left. Qed.
  (** two schedules, one after the other *)
  Lemma run_past_two start sched1 i sched2 c1 c2 : run step sched1 start = Some c1 -> run step (i :: sched2) c1 = Some c2 -> exists past, passes step start past c2 /\ c1 ∈ past.
  Proof.
    assert (E : forall sched past c c', run step sched c = Some c' -> exists past', run_past past c sched = Some (past', c')).
    { clear. induction sched as [|j sched IH]; intros past [s ls] c' H; [cbn in H; injection H as <-; eexists; reflexivity|]. cbn in H. cbn [run_past run]. cbn. destruct (ls !! j) as [t|]; [|discriminate]. destruct (step j s t) as [[s' t']|]; [|discriminate].
      apply IH. exact H. }
    intros H1 H2. destruct (E _ [] _ _ H1) as [p1 E1]. destruct (E _ p1 _ _ H2) as [p2 E2]. exists p2. split; [|exact (run_past_start _ _ _ _ _ _ E2)].
    eapply run_past_passes; [|exact E2]. eapply run_past_passes; [apply pass_start|exact E1].
  Qed.
End passes_run.

Section search.
  Context {S : Type} (f : S -> qop nat * qres nat -> option S).
  (** the states after all orders of the calls [rem] of each thread *)
  Fixpoint finals (fuel : nat) (rem : list (list (qop nat * qres nat))) (M : S) : list S :=
    if forallb (fun cs => match cs with [] => true | _ => false end) rem then [M] else
    match fuel with
    | O => []
    | Datatypes.S fuel =>
      (fix go (before after : list (list (qop nat * qres nat))) : list S :=
         match after with
         | [] => []
         | cs :: after' =>
           match cs with
           | [] => []
           | x :: cs' => match f M x with Some M' => finals fuel (before ++ cs' :: after') M' | None => [] end
           end ++ go (before ++ [cs]) after'
         end) [] rem
    end.
  Fixpoint seqf (M : S) (h : list (nat * (qop nat * qres nat))) : option S := match h with [] => Some M | (_, x) :: h => match f M x with Some M' => seqf M' h | None => None end end.
  Lemma finals_complete : forall h rem M M', seqf M h = Some M' -> (forall x, x ∈ h -> (x.1 < length rem)%nat) -> (forall i, (i < length rem)%nat -> rem !! i = Some (calls_by i h)) -> M' ∈ finals (length h) rem M.
  Proof.
    induction h as [|[j x] h IH]; intros rem M M' HS HI HR.
    - cbn in HS. injection HS as ->. assert (E : forallb (fun cs : list (qop nat * qres nat) => match cs with [] => true | _ => false end) rem = true).
      { apply forallb_forall. intros cs Hc. apply elem_of_list_In, elem_of_list_lookup in Hc as [i Hi]. pose proof (lookup_lt_Some _ _ _ Hi) as Hlt. rewrite (HR i Hlt) in Hi. injection Hi as <-. reflexivity. }
      cbn. rewrite E. left.
    - cbn in HS. destruct (f M x) as [M1|] eqn:Ef; [|discriminate]. assert (Hj : (j < length rem)%nat) by (apply (HI (j, x)); left).
      assert (Ej : rem !! j = Some (x :: calls_by j h)). { rewrite (HR j Hj). f_equal. unfold calls_by. rewrite filter_cons. cbn. rewrite decide_True by reflexivity. reflexivity. }
      assert (E : forallb (fun cs : list (qop nat * qres nat) => match cs with [] => true | _ => false end) rem = false).
      { apply not_true_is_false. intros E. rewrite forallb_forall in E. specialize (E (x :: calls_by j h) (proj1 (elem_of_list_In _ _) (elem_of_list_lookup_2 _ _ _ Ej))). discriminate. }
      cbn [length finals]. rewrite E.
      assert (G : M' ∈ finals (length h) (take j rem ++ calls_by j h :: drop (Datatypes.S j) rem) M1).
      { assert (El : length (take j rem ++ calls_by j h :: drop (Datatypes.S j) rem) = length rem) by (rewrite app_length, take_length; cbn [length]; rewrite drop_length; lia).
        apply IH; [exact HS| |].
        - intros y Hy. rewrite El. apply HI. right. exact Hy.
        - intros i Hi. rewrite El in Hi. destruct (decide (i = j)) as [->|Hne].
          + rewrite lookup_app_r by (rewrite take_length; lia). rewrite take_length, Nat.min_l, Nat.sub_diag by lia. reflexivity.
          + assert (X : (take j rem ++ calls_by j h :: drop (Datatypes.S j) rem) !! i = rem !! i).
            { destruct (decide (i < j)%nat); [rewrite lookup_app_l by (rewrite take_length; lia); apply lookup_take; lia|]. rewrite lookup_app_r by (rewrite take_length; lia). rewrite take_length, Nat.min_l by lia.
              destruct (i - j)%nat as [|k] eqn:Ek; [lia|]. change (drop (Datatypes.S j) rem !! k = rem !! i). rewrite lookup_drop. f_equal. lia. }
            rewrite X, (HR i Hi). f_equal. unfold calls_by. rewrite filter_cons. cbn. rewrite decide_False by auto. reflexivity. }
      assert (A : forall before after, rem = before ++ after -> (length before <= j)%nat -> M' ∈
        (fix go (before after : list (list (qop nat * qres nat))) : list S :=
         match after with
         | [] => []
         | cs :: after' =>
           match cs with
           | [] => []
           | x :: cs' => match f M x with Some M' => finals (length h) (before ++ cs' :: after') M' | None => [] end
           end ++ go (before ++ [cs]) after'
         end) before after).
      { intros before after. revert before. induction after as [|cs after IHa]; intros before Er Hb; [rewrite Er, app_nil_r in Hj; lia|].
        apply elem_of_app. destruct (decide (length before = j)) as [Eb|Eb].
        - left. rewrite Er, lookup_app_r, Eb, Nat.sub_diag in Ej by lia. injection Ej as ->. rewrite Ef. rewrite Er in G. subst j. rewrite take_app in G. replace (Datatypes.S (length before)) with (length before + 1)%nat in G by lia.
          rewrite drop_app_ge in G by lia. replace (length before + 1 - length before)%nat with 1%nat in G by lia. exact G.
        - right. apply IHa; [rewrite <- app_assoc; exact Er|rewrite app_length; cbn; lia]. }
      apply (A [] rem); [reflexivity|cbn; lia].
  Qed.
End search.

(** the calls as functions; anything but a push or pop that succeeds is let through *)
Definition fifo_f (M : list nat) (x : qop nat * qres nat) : option (list nat) :=
  match x with
  | (QPush _ a, Pushed y) => if (y =? a)%nat then Some (M ++ [a]) else None
  | (QPop _, Popped y) => match M with z :: M' => if (z =? y)%nat then Some M' else None | [] => None end
  | (QPop _, Refused) | (QPop _, OutOfBounds) => Some M
  | _ => None
  end.
Lemma fifo_seqf n late M h late' M' : fifo n late M h late' M' -> seqf fifo_f M h = Some M'.
Proof.
  revert late M. induction h as [|[j x] h IH]; intros late M; cbn [fifo seqf]; [intros [_ ->]; reflexivity|]. intros (late1 & M1 & Hc & Hf). specialize (IH late1 M1 Hf).
  destruct x as [[k x|k] r]; destruct r; cbn in *; try contradiction.
  - destruct Hc as (-> & -> & _). rewrite Nat.eqb_refl. exact IH.
  - destruct Hc as (-> & _). rewrite Nat.eqb_refl. exact IH.
  - destruct Hc as (_ & -> & _). exact IH.
  - destruct Hc as (_ & -> & _). exact IH.
Qed.
Definition lifo_f (M : list nat) (x : qop nat * qres nat) : option (list nat) :=
  match x with
  | (QPush _ a, Pushed y) => if (y =? a)%nat then Some (M ++ [a]) else None
  | (QPush _ _, Refused) | (QPush _ _, OutOfBounds) => Some M
  | (QPop _, Popped y) => match rev M with z :: M' => if (z =? y)%nat then Some (rev M') else None | [] => None end
  | (QPop _, Refused) | (QPop _, OutOfBounds) => Some M
  | _ => None
  end.
Lemma lifo_app cap k M h1 h2 M' : lifo (T:=nat) cap k M (h1 ++ h2) M' -> exists M1, lifo cap k M h1 M1 /\ lifo cap k M1 h2 M'.
Proof. revert M. induction h1 as [|[j x] h1 IH]; intros M; cbn [lifo app]; [eauto|]. intros (M1 & Hc & Hl). destruct (IH M1 Hl) as (M2 & H1 & H2). exists M2. eauto. Qed.
Lemma lifo_seqf cap k M h M' : lifo cap k M h M' -> seqf lifo_f M h = Some M'.
Proof.
  revert M. induction h as [|[j x] h IH]; intros M; cbn [lifo seqf]; [intros ->; reflexivity|]. intros (M1 & Hc & Hf). specialize (IH M1 Hf).
  destruct x as [[kd x|kd] r]; destruct r; cbn in *; try contradiction.
  - destruct Hc as (-> & -> & _). rewrite Nat.eqb_refl. exact IH.
  - destruct Hc as (_ & ->). exact IH.
  - destruct Hc as (_ & ->). exact IH.
  - subst M. rewrite rev_app_distr. cbn. rewrite Nat.eqb_refl, rev_involutive. exact IH.
  - destruct Hc as (_ & ->). exact IH.
  - destruct Hc as (_ & ->). exact IH.
Qed.

Lemma accounts_rest progs (ls : list (qthread nat)) h : length ls = length progs -> quiescent ls -> accounts progs ls h ->
  forall i, (i < length progs)%nat -> zip_with (fun prog t => zip prog (q_log t)) progs ls !! i = Some (calls_by i h).
Proof.
  intros HL Hq [_ HA] i Hi. destruct (lookup_lt_is_Some_2 progs i Hi) as [prog Hp]. destruct (lookup_lt_is_Some_2 ls i ltac:(lia)) as [t Ht].
  rewrite lookup_zip_with, Hp. cbn. rewrite Ht. cbn. f_equal. destruct (HA i t prog Ht Hp) as [E|(op & rest & r & X & _)]; [symmetry; exact E|]. exfalso. apply X. apply Hq. exact (elem_of_list_lookup_2 _ _ _ Ht).
Qed.
Lemma calls_length (h : list (nat * (qop nat * qres nat))) k : (forall x, x ∈ h -> (x.1 < k)%nat) -> length h = sum_list ((fun i => length (calls_by i h)) <$> seq 0 k).
Proof.
  induction h as [|[j x] h IH]; intros HI.
  - symmetry. assert (E : forall a, sum_list ((fun i => length (calls_by (T:=nat) i [])) <$> seq a k) = 0%nat); [|apply E]. clear. induction k as [|k IH]; intros a; [reflexivity|]. cbn. apply IH.
  - cbn [length]. rewrite IH by (intros y Hy; apply HI; right; exact Hy). assert (Hj : (j < k)%nat) by (apply (HI (j, x)); left).
    assert (E : forall a, (a <= j)%nat -> (j < a + k)%nat -> sum_list ((fun i => length (calls_by i ((j, x) :: h))) <$> seq a k) = Datatypes.S (sum_list ((fun i => length (calls_by i h)) <$> seq a k))).
    { assert (E1 : forall k a, (j < a)%nat -> sum_list ((fun i => length (calls_by i ((j, x) :: h))) <$> seq a k) = sum_list ((fun i => length (calls_by i h)) <$> seq a k)).
      { clear. induction k as [|k IH]; intros a Ha; [reflexivity|]. cbn [seq fmap list_fmap sum_list]. rewrite IH by lia. f_equal. unfold calls_by. rewrite filter_cons. cbn. rewrite decide_False by lia. reflexivity. }
      clear -E1. induction k as [|k IH]; intros a Ha Hk; [lia|]. cbn [seq fmap list_fmap sum_list]. destruct (decide (a = j)) as [->|Hne].
      - rewrite E1 by lia. unfold calls_by at 1. rewrite filter_cons. cbn. rewrite decide_True by reflexivity. cbn. reflexivity.
      - rewrite IH by lia. unfold calls_by at 1. rewrite filter_cons. cbn. rewrite decide_False by auto. unfold calls_by. lia. }
    rewrite E by lia. reflexivity.
Qed.
Lemma finals_all {S : Type} (f : S -> qop nat * qres nat -> option S) h rem M M' : seqf f M h = Some M' -> (forall x, x ∈ h -> (x.1 < length rem)%nat) ->
  (forall i, (i < length rem)%nat -> rem !! i = Some (calls_by i h)) -> M' ∈ finals f (sum_list (length <$> rem)) rem M.
Proof.
  intros HS HI HR. replace (sum_list (length <$> rem)) with (length h); [apply finals_complete; assumption|]. rewrite (calls_length h _ HI). f_equal. apply list_eq. intros i. rewrite !list_lookup_fmap.
  destruct (decide (i < length rem)%nat) as [Hi|Hi]; [rewrite lookup_seq_lt, (HR i Hi) by exact Hi; reflexivity|]. rewrite !lookup_ge_None_2; [reflexivity|lia|rewrite seq_length; lia].
Qed.

(** ** the queue: a pop that overtakes a sleeping pop of the same slot *)
Definition w73_progs : list (list (qop nat)) := [[QPop KPopFront]; [QPush KPushBack 11%nat; QPush KPushBack 12%nat]; [QPop KPopFront; QPop KPopFront]].
Definition w73_sched : list nat := replicate 4 0%nat ++ replicate 9 1%nat ++ replicate 10 2%nat ++ replicate 4 1%nat ++ replicate 10 2%nat ++ replicate 5 1%nat ++ replicate 6 0%nat.
Definition w73_ls : list (qthread nat) :=
  [{| q_pc := QIdle; q_prog := []; q_log := [Popped 12%nat] |}; {| q_pc := QIdle; q_prog := []; q_log := [Pushed 11%nat; Pushed 12%nat] |}; {| q_pc := QIdle; q_prog := []; q_log := [Popped 11%nat; Popped 10%nat] |}].
Lemma w73_run : reach (qstep (dctl 2)) (deq_conc_start 2 0 [10%nat], q_start w73_progs) (deq_conc_start 2 1 [], w73_ls).
Proof. apply (run_reach _ w73_sched). vm_compute. reflexivity. Qed.
Lemma w73_none n h late M : accounts w73_progs w73_ls h -> ~ fifo n false [10%nat] h late M.
Proof.
  intros HA HF. pose proof (finals_all fifo_f h (zip_with (fun prog t => zip prog (q_log t)) w73_progs w73_ls) [10%nat] M (fifo_seqf _ _ _ _ _ _ HF) (proj1 HA) (accounts_rest w73_progs w73_ls h eq_refl ltac:(intros t Ht; repeat (apply elem_of_cons in Ht as [-> |Ht]; [reflexivity|]); inversion Ht) HA)) as X.
  vm_compute in X. inversion X.
Qed.

(** ** vector and stack: a push that waits for a slot another pop has claimed *)
Definition w74_progs : list (list (qop nat)) := [[QPop KPopBack]; [QPush KPushBack 3%nat; QPush KPushBack 4%nat; QPush KPushBack 5%nat]; [QPop KPopBack; QPop KPopBack; QPop KPopBack; QPop KPopBack]].
(** [n] steps until a slot is claimed *)
Definition w74_sched1 (n : nat) : list nat := replicate n 0%nat ++ replicate n 1%nat ++ replicate (n + 6) 2%nat ++ replicate 5 1%nat.
Definition w74_sched2 (n : nat) : list nat := replicate (n + 5) 2%nat ++ replicate (n + 5) 1%nat ++ replicate n 1%nat ++ replicate (n + 6) 2%nat ++ replicate 5 1%nat ++ replicate 6 0%nat ++ replicate (n + 6) 2%nat.
Definition w74_ls1 : list (qthread nat) :=
  [{| q_pc := QTry 1; q_prog := [QPop KPopBack]; q_log := [] |}; {| q_pc := QIdle; q_prog := [QPush KPushBack 4%nat; QPush KPushBack 5%nat]; q_log := [Pushed 3%nat] |};
   {| q_pc := QIdle; q_prog := [QPop KPopBack; QPop KPopBack; QPop KPopBack]; q_log := [Popped 2%nat] |}].
Definition w74_ls : list (qthread nat) :=
  [{| q_pc := QIdle; q_prog := []; q_log := [Popped 5%nat] |}; {| q_pc := QIdle; q_prog := []; q_log := [Pushed 3%nat; Pushed 4%nat; Pushed 5%nat] |};
   {| q_pc := QIdle; q_prog := []; q_log := [Popped 2%nat; Popped 1%nat; Popped 3%nat; Popped 4%nat] |}].
Lemma w74_vector : exists past s1, passes (qstep (vctl 2)) (vec_conc_start 2 [1%nat; 2%nat], q_start w74_progs) past (vec_conc_start 2 [], w74_ls) /\ (s1, w74_ls1) ∈ past.
Proof.
  destruct (run (qstep (vctl 2)) (w74_sched1 3) (vec_conc_start 2 [1%nat; 2%nat], q_start w74_progs)) as [[s1 l1]|] eqn:E1; [|vm_compute in E1; discriminate].
  assert (l1 = w74_ls1) as -> by (vm_compute in E1; injection E1 as _ <-; reflexivity).
  destruct (run_past_two (qstep (vctl 2)) _ _ 2%nat (w74_sched2 3) _ (vec_conc_start 2 [], w74_ls) E1) as (past & HP & HI); [|eauto]. vm_compute in E1. injection E1 as <-. vm_compute. reflexivity.
Qed.
Lemma w74_stack : exists past s1, passes (qstep (dctl 2)) (deq_conc_start 2 0 [1%nat; 2%nat], q_start w74_progs) past (deq_conc_start 2 0 [], w74_ls) /\ (s1, w74_ls1) ∈ past.
Proof.
  destruct (run (qstep (dctl 2)) (w74_sched1 4) (deq_conc_start 2 0 [1%nat; 2%nat], q_start w74_progs)) as [[s1 l1]|] eqn:E1; [|vm_compute in E1; discriminate].
  assert (l1 = w74_ls1) as -> by (vm_compute in E1; injection E1 as _ <-; reflexivity).
  destruct (run_past_two (qstep (dctl 2)) _ _ 2%nat (w74_sched2 4) _ (deq_conc_start 2 0 [], w74_ls) E1) as (past & HP & HI); [|eauto]. vm_compute in E1. injection E1 as <-. vm_compute. reflexivity.
Qed.
Lemma w74_none {C} (past : list (qshared nat C * list (qthread nat))) s1 cap k h M : (s1, w74_ls1) ∈ past -> in_order w74_progs past w74_ls h -> ~ lifo cap k [1%nat; 2%nat] h M.
Proof.
  intros HP [HA HB] HL. destruct (HB _ HP) as (ha & hb & -> & [A1 A2]). cbn [snd] in A2. destruct (lifo_app _ _ _ _ _ _ HL) as (M1 & L1 & L2).
  pose proof (accounts_rest w74_progs w74_ls _ eq_refl ltac:(intros t Ht; repeat (apply elem_of_cons in Ht as [-> |Ht]; [reflexivity|]); inversion Ht) HA) as HR.
  assert (CA : forall i, calls_by i (ha ++ hb) = calls_by i ha ++ calls_by i hb) by (intros i; unfold calls_by; rewrite filter_app, fmap_app; reflexivity).
  pose proof (HR 0%nat ltac:(cbn; lia)) as R0. pose proof (HR 1%nat ltac:(cbn; lia)) as R1. pose proof (HR 2%nat ltac:(cbn; lia)) as R2. rewrite CA in R0, R1, R2. cbn in R0, R1, R2. injection R0 as R0. injection R1 as R1. injection R2 as R2.
  assert (D1 : calls_by 1 ha = [(QPush KPushBack 3%nat, Pushed 3%nat)]). { destruct (A2 1%nat _ _ eq_refl eq_refl) as [E|(op & rest & r & X & _)]; [exact E|]. exfalso. apply X. reflexivity. }
  assert (D2 : calls_by 2 ha = [(QPop KPopBack, Popped 2%nat)]). { destruct (A2 2%nat _ _ eq_refl eq_refl) as [E|(op & rest & r & X & _)]; [exact E|]. exfalso. apply X. reflexivity. }
  assert (D0 : calls_by 0 ha = [] /\ calls_by 0 hb = [(QPop KPopBack, Popped 5%nat)] \/ calls_by 0 ha = [(QPop KPopBack, Popped 5%nat)] /\ calls_by 0 hb = []).
  { destruct (A2 0%nat _ _ eq_refl eq_refl) as [E|(op & rest & r & _ & X & E)]; cbn in E; rewrite E in R0; cbn in R0; [left; auto|]. injection R0 as <- <- R0. right. auto. }
  rewrite D1 in R1. rewrite D2 in R2. cbn in R1, R2. injection R1 as R1. injection R2 as R2.
  assert (DH : forall x, x ∈ ha ++ hb -> (x.1 < 3)%nat) by exact (proj1 HA).
  assert (go : forall c0a c0b, calls_by 0 ha = c0a -> calls_by 0 hb = c0b -> forall ra rb, ra = [c0a; calls_by 1 ha; calls_by 2 ha] -> rb = [c0b; calls_by 1 hb; calls_by 2 hb] ->
     M ∈ finals lifo_f (sum_list (length <$> ra)) ra [1%nat; 2%nat] ≫= finals lifo_f (sum_list (length <$> rb)) rb).
  { intros c0a c0b E1 E2 ra rb -> ->. apply elem_of_list_bind. exists M1. split.
    - apply (finals_all lifo_f hb); [exact (lifo_seqf _ _ _ _ _ L2)|intros x Hx; apply DH, elem_of_app; auto|]. rewrite <- E2. intros [|[|[|i]]] Hi; try reflexivity. cbn in Hi. lia.
    - apply (finals_all lifo_f ha); [exact (lifo_seqf _ _ _ _ _ L1)|intros x Hx; apply DH, elem_of_app; auto|]. rewrite <- E1. intros [|[|[|i]]] Hi; try reflexivity. cbn in Hi. lia. }
  rewrite <- R1, <- R2, D1, D2 in go. destruct D0 as [[D3 D4]|[D3 D4]]; specialize (go _ _ D3 D4 _ _ eq_refl eq_refl); vm_compute in go; inversion go.
Qed.

(** ** the queue: a pop refused although the queue holds an element *)
Definition exact_f (M : bool * list nat) (x : qop nat * qres nat) : option (bool * list nat) :=
  match x with
  | (QPush _ a, Pushed y) => if (y =? a)%nat then Some (M.1, M.2 ++ [a]) else None
  | (QPop _, Popped y) => match M.2 with z :: M' => if (z =? y)%nat then Some (M.1, M') else None | [] => None end
  | (QPop _, Refused) => if M.1 || (length M.2 <? 1)%nat then Some M else None
  | (QPop _, OutOfBounds) => if M.1 || (length M.2 <? 1)%nat then Some (true, M.2) else None
  | _ => None
  end.
Lemma exact_seqf late M h late' M' : fifo 1 late M h late' M' -> seqf exact_f (late, M) h = Some (late', M').
Proof.
  revert late M. induction h as [|[j x] h IH]; intros late M; cbn [fifo seqf]; [intros [-> ->]; reflexivity|]. intros (late1 & M1 & Hc & Hf). specialize (IH late1 M1 Hf).
  destruct x as [[k x|k] r]; destruct r; cbn [fifo_call exact_f fst snd] in *; try contradiction.
  - destruct Hc as (-> & -> & ->). rewrite Nat.eqb_refl. exact IH.
  - destruct Hc as (-> & ->). rewrite Nat.eqb_refl. exact IH.
  - destruct Hc as (Hc & -> & ->). assert (E : (late || (length M <? 1)%nat)%bool = true). { destruct Hc as [-> |Hc]; [reflexivity|]. rewrite (proj2 (Nat.ltb_lt _ _) Hc). apply orb_true_r. } rewrite E. exact IH.
  - destruct Hc as (Hc & -> & ->). assert (E : (late || (length M <? 1)%nat)%bool = true). { destruct Hc as [-> |Hc]; [reflexivity|]. rewrite (proj2 (Nat.ltb_lt _ _) Hc). apply orb_true_r. } rewrite E. exact IH.
Qed.
Definition w73b_progs : list (list (qop nat)) := [[QPop KPopFront]; [QPop KPopFront]; [QPush KPushBack 2%nat]; [QPop KPopFront]].
Definition w73b_ls1 : list (qthread nat) :=
  [{| q_pc := QCtl 2; q_prog := [QPop KPopFront]; q_log := [] |}; {| q_pc := QIdle; q_prog := []; q_log := [Refused] |};
   {| q_pc := QIdle; q_prog := [QPush KPushBack 2%nat]; q_log := [] |}; {| q_pc := QIdle; q_prog := [QPop KPopFront]; q_log := [] |}].
Definition w73b_ls : list (qthread nat) :=
  [{| q_pc := QIdle; q_prog := []; q_log := [Popped 2%nat] |}; {| q_pc := QIdle; q_prog := []; q_log := [Refused] |};
   {| q_pc := QIdle; q_prog := []; q_log := [Pushed 2%nat] |}; {| q_pc := QIdle; q_prog := []; q_log := [Popped 1%nat] |}].
Lemma w73b_run : exists past s1, passes (qstep (dctl 2)) (deq_conc_start 2 0 [1%nat], q_start w73b_progs) past (deq_conc_start 2 0 [], w73b_ls) /\ (s1, w73b_ls1) ∈ past.
Proof.
  destruct (run (qstep (dctl 2)) (replicate 3 0%nat ++ replicate 2 1%nat) (deq_conc_start 2 0 [1%nat], q_start w73b_progs)) as [[s1 l1]|] eqn:E1; [|vm_compute in E1; discriminate].
  assert (l1 = w73b_ls1) as -> by (vm_compute in E1; injection E1 as _ <-; reflexivity).
  destruct (run_past_two (qstep (dctl 2)) _ _ 2%nat (replicate 8 2%nat ++ replicate 10 3%nat ++ replicate 7 0%nat) _ (deq_conc_start 2 0 [], w73b_ls) E1) as (past & HP & HI); [|eauto]. vm_compute in E1. injection E1 as <-. vm_compute. reflexivity.
Qed.
Lemma fifo_app n late M h1 h2 late' M' : fifo (T:=nat) n late M (h1 ++ h2) late' M' -> exists late1 M1, fifo n late M h1 late1 M1 /\ fifo n late1 M1 h2 late' M'.
Proof.
  revert late M. induction h1 as [|[j x] h1 IH]; intros late M; cbn [fifo app]; [intros H; exists late, M; auto|]. intros (l1 & M1 & Hc & Hl). destruct (IH l1 M1 Hl) as (l2 & M2 & H1 & H2). exists l2, M2. split; [exists l1, M1; auto|exact H2].
Qed.
Lemma w73b_none {C} (past : list (qshared nat C * list (qthread nat))) s1 h late M : (s1, w73b_ls1) ∈ past -> in_order w73b_progs past w73b_ls h -> ~ fifo 1 false [1%nat] h late M.
Proof.
  intros HP [HA HB] HL. destruct (HB _ HP) as (ha & hb & -> & [A1 A2]). cbn [snd] in A2. destruct (fifo_app _ _ _ _ _ _ _ HL) as (l1 & M1 & L1 & _).
  pose proof (accounts_rest w73b_progs w73b_ls _ eq_refl ltac:(intros t Ht; repeat (apply elem_of_cons in Ht as [-> |Ht]; [reflexivity|]); inversion Ht) HA) as HR.
  assert (CA : forall i, calls_by i (ha ++ hb) = calls_by i ha ++ calls_by i hb) by (intros i; unfold calls_by; rewrite filter_app, fmap_app; reflexivity).
  pose proof (HR 0%nat ltac:(cbn; lia)) as R0. rewrite CA in R0. cbn in R0. injection R0 as R0.
  assert (D1 : calls_by 1 ha = [(QPop KPopFront, Refused)]). { destruct (A2 1%nat _ _ eq_refl eq_refl) as [E|(op & rest & r & X & _)]; [exact E|]. exfalso. apply X. reflexivity. }
  assert (D2 : calls_by 2 ha = []). { destruct (A2 2%nat _ _ eq_refl eq_refl) as [E|(op & rest & r & X & _)]; [exact E|]. exfalso. apply X. reflexivity. }
  assert (D3 : calls_by 3 ha = []). { destruct (A2 3%nat _ _ eq_refl eq_refl) as [E|(op & rest & r & X & _)]; [exact E|]. exfalso. apply X. reflexivity. }
  assert (D0 : calls_by 0 ha = [] \/ calls_by 0 ha = [(QPop KPopFront, Popped 2%nat)]).
  { destruct (A2 0%nat _ _ eq_refl eq_refl) as [E|(op & rest & r & _ & X & E)]; cbn in E; rewrite E in R0; cbn in R0; [left; auto|]. injection R0 as <- <- R0. right. auto. }
  assert (G : (l1, M1) ∈ finals exact_f (sum_list (length <$> [calls_by 0 ha; calls_by 1 ha; calls_by 2 ha; calls_by 3 ha])) [calls_by 0 ha; calls_by 1 ha; calls_by 2 ha; calls_by 3 ha] (false, [1%nat])).
  { apply (finals_all exact_f ha); [exact (exact_seqf _ _ _ _ _ L1)|exact A1|]. intros [|[|[|[|i]]]] Hi; try reflexivity. cbn in Hi. lia. }
  rewrite D1, D2, D3 in G. destruct D0 as [D0|D0]; rewrite D0 in G; vm_compute in G; inversion G.
Qed.
