(** Data races on the plain memory of the unordered containers: which do not exist. *)
From Verif Require Import Base Conc SlotModel SlotSpec SlotProofs VectorModel VectorProofs VectorConcProofs HashProofs UnorderedModel UnorderedSpec UnorderedProofs UConcModel UConcSpec UConcProofs UConcReach UConcFinal UConcEnd UEraseModel UEraseSpec UEraseProofs URaceModel.

(** ** inserts and lookups *)
Section insert.
  Context {K V : Type} (kf : V -> K) (hash : K -> Z) (keq : K -> K -> bool) (bc E : nat).
  Hypothesis keq_refl : forall a, keq a a = true.
  Hypothesis keq_sym : forall a b, keq a b = true -> keq b a = true.
  Hypothesis keq_trans : forall a b c, keq a b = true -> keq b c = true -> keq a c = true.
  Hypothesis Hhash : forall a b, keq a b = true -> hash a = hash b.
  Hypothesis Hbc : (0 < bc)%nat.
  Hypothesis HE : (0 < E)%nat.
  Hypothesis Hmax : Z.of_nat (bc + E) <= INT_MAX.
  Notation n := (bc + E)%nat.
  Notation bkt := (bkt hash bc).
  Context (M0 : list V) (s : cshared V) (ls : list (cthread K V)) (G : list (option V * list (nat * V))) (F : list nat).
  Hypothesis I : cinv kf hash keq bc E M0 s ls G F.
  Let f_bucket := cf_bucket kf hash keq bc E keq_refl keq_sym keq_trans Hhash Hbc HE Hmax M0 s ls G F I.
  Let f_hand_chain := cf_hand_chain kf hash keq bc E keq_refl keq_sym keq_trans Hhash Hbc HE Hmax M0 s ls G F I.
  Let f_hand_range := cf_hand_range kf hash keq bc E keq_refl keq_sym keq_trans Hhash Hbc HE Hmax M0 s ls G F I.
  Let f_hands := cf_hands kf hash keq bc E keq_refl keq_sym keq_trans Hhash Hbc HE Hmax M0 s ls G F I.
  Let f_excl := cf_lock_excl kf hash keq bc E keq_refl keq_sym keq_trans Hhash Hbc HE Hmax M0 s ls G F I.
  Let f_chain_range := cf_chain_range kf hash keq bc E keq_refl keq_sym keq_trans Hhash Hbc HE Hmax M0 s ls G F I.
  Let f_node_range := cf_node_range kf hash keq bc E keq_refl keq_sym keq_trans Hhash Hbc HE Hmax M0 s ls G F I.
  Let f_node_other := cf_node_other kf hash keq bc E keq_refl keq_sym keq_trans Hhash Hbc HE Hmax M0 s ls G F I.
  Let b_range := fun k => proj2 (bucket_of_bkt hash keq bc E keq_refl keq_sym keq_trans Hhash Hbc HE Hmax k).
  Let b_eq := fun k => proj1 (bucket_of_bkt hash keq bc E keq_refl keq_sym keq_trans Hhash Hbc HE Hmax k).

  Lemma seen_node g b k i : seen kf keq g b k i -> i ∈ b :: gpos g.
  Proof using.
    intros (es1 & es2 & E1 & <- & _). unfold gpos. rewrite E1, fmap_app. clear. revert b. induction es1 as [|[x v] es1 IH]; intros b; [left|].
    cbn [fmap list_fmap fst]. rewrite lend_cons. right. exact (IH x).
  Qed.
  Lemma coming_node g b k i : coming kf keq g b k i -> i ∈ b :: gpos g.
  Proof using.
    intros [-> |(es1 & w & es2 & E1 & _)]; [left|right]. unfold gpos. rewrite E1, fmap_app. apply elem_of_app. right. left.
  Qed.
  (** what an access says about the thread *)
  Definition rd (t : cthread K V) (x : place) : Prop :=
    exists op rest g, c_prog t = op :: rest /\ G !! bkt (op_key kf op) = Some g /\
      match x with
      | VALUE i => i ∈ bkt (op_key kf op) :: gpos g /\ (i = bkt (op_key kf op) -> g.1 <> None)
      | OFFSET i => i ∈ bkt (op_key kf op) :: gpos g
      | EXCESS _ => True
      end.
  Definition wr (t : cthread K V) (x : place) : Prop :=
    exists op rest g, c_prog t = op :: rest /\ G !! bkt (op_key kf op) = Some g /\
      match x with
      | VALUE p => (c_pc t = IConB /\ p = bkt (op_key kf op) /\ g.1 = None /\ lock_of kf hash bc t = Some p) \/ p ∈ hand t
      | OFFSET p => (exists e, c_pc t = IOffL e p /\ p ∈ hand t) \/ (exists q v, c_pc t = ILinkL p q /\ lock_of kf hash bc t = Some p /\ p = lend (bkt (op_key kf op)) (gpos g) /\
                      op = CInsert v /\ stored_at s q v /\ c_off s !! p = Some 0)
      | EXCESS _ => False
      end.

  Lemma access_facts t x w : t ∈ ls -> plain_access kf hash bc t = Some (x, w) -> if w then wr t x else rd t x.
  Proof using All.
    intros Ht Ha. destruct (ci_tl _ _ _ _ _ _ _ _ _ _ I t Ht) as [[_ T] TP]. unfold plain_access in Ha. destruct (c_prog t) as [|op rest] eqn:Ep; [discriminate|].
    destruct (f_bucket _ (b_range (op_key kf op))) as [g Hg]. specialize (T g Hg).
    assert (Hfind : forall c i, walk kf keq c g (bkt (op_key kf op)) (op_key kf op) (FVal c i) -> rd t (VALUE i)).
    { intros c i (H1 & _ & H3). exists op, rest, g. split; [exact Ep|]. split; [exact Hg|]. split; [exact (coming_node _ _ _ _ H1)|exact H3]. }
    assert (Hoff : forall i, i ∈ bkt (op_key kf op) :: gpos g -> rd t (OFFSET i)).
    { intros i H. exists op, rest, g. auto. }
    unfold tkey in *.
    destruct (c_pc t) eqn:Epc; try discriminate.
    - (* FVal *) injection Ha as <- <-. apply (Hfind c). destruct op; cbn [knows_ins knows_find] in T; [apply T|destruct c; try contradiction; exact T..].
    - injection Ha as <- <-. apply Hoff. destruct op; cbn [knows_ins knows_find] in T;
        [destruct T as [_ [T _]]; exact (seen_node _ _ _ _ T)|destruct c; try contradiction; destruct T as [T _]; exact (seen_node _ _ _ _ T)..].
    - injection Ha as <- <-. apply Hoff. destruct op; cbn [knows_ins knows_find] in T;
        [destruct T as [_ [T _]]; exact (seen_node _ _ _ _ T)|destruct c; try contradiction; destruct T as [T _]; exact (seen_node _ _ _ _ T)..].
    - injection Ha as <- <-. apply Hoff. destruct op; cbn [knows_ins knows_find] in T; [|contradiction..]. exact (proj1 (proj2 T)).
    - injection Ha as <- <-. apply Hoff. destruct op; cbn [knows_ins knows_find] in T; [|contradiction..]. exact (proj1 (proj2 T)).
    - exfalso. destruct op; exact T.
    - exfalso. destruct op; exact T.
    - (* IConB *) rewrite b_eq in Ha. injection Ha as <- <-. exists op, rest, g. split; [exact Ep|]. split; [exact Hg|]. left.
      destruct op; cbn [knows_ins knows_find] in T; [|contradiction..]. split; [exact Epc|]. split; [reflexivity|]. split; [apply T|]. unfold lock_of, tb. rewrite Epc, Ep. reflexivity.
    - (* IPop *) destruct op; cbn [knows_ins knows_find] in T; [|contradiction..]. destruct T as (_ & Eq & _). unfold excess_access in Ha. rewrite Eq in Ha.
      destruct (q_pc q); try discriminate; injection Ha as <- <-; exists (CInsert v), rest, g; auto.
    - (* IConL *) injection Ha as <- <-. exists op, rest, g. split; [exact Ep|]. split; [exact Hg|]. right. unfold hand. rewrite Epc. left.
    - (* IOffL *) injection Ha as <- <-. exists op, rest, g. split; [exact Ep|]. split; [exact Hg|]. left. exists e. split; [exact Epc|]. unfold hand. rewrite Epc. left.
    - (* ILinkL *) injection Ha as <- <-. exists op, rest, g. split; [exact Ep|]. split; [exact Hg|]. right.
      destruct op; cbn [knows_ins knows_find] in T; [|contradiction..]. destruct T as (_ & _ & T). unfold tp in TP. rewrite Ep, Epc in TP. destruct TP as (P1 & P2 & P3).
      exists p, v. split; [exact Epc|]. split; [unfold lock_of; rewrite Epc; reflexivity|]. split; [exact T|]. split; [reflexivity|]. split; [split; assumption|].
      rewrite T. apply (linked_last _ _ _ (ci_link _ _ _ _ _ _ _ _ _ _ I _ _ Hg)).
    - exfalso. destruct op; exact T.
    - exfalso. destruct op; exact T.
    - exfalso. destruct op; exact T.
    - exfalso. destruct op; exact T.
    - exfalso. destruct op; exact T.
  Qed.

  Lemma node_lt b g i : G !! b = Some g -> i ∈ b :: gpos g -> (i < n)%nat.
  Proof using All. intros Hg. exact (f_node_range b g i Hg). Qed.

  (** no data race on a value or an element of the excess list; on offsets only between a reader and the linking of a finished entry *)
  Lemma insert_races i j ti tj x w' : i <> j -> ls !! i = Some ti -> ls !! j = Some tj ->
    plain_access kf hash bc ti = Some (x, true) -> plain_access kf hash bc tj = Some (x, w') ->
    w' = false /\ exists p q v rest, x = OFFSET p /\ c_pc ti = ILinkL p q /\ c_prog ti = CInsert v :: rest /\ stored_at s q v /\ c_off s !! p = Some 0.
  Proof using All.
    intros Hne Hi Hj Ai Aj. pose proof (elem_of_list_lookup_2 _ _ _ Hi) as Ti. pose proof (elem_of_list_lookup_2 _ _ _ Hj) as Tj.
    pose proof (access_facts ti x true Ti Ai) as Wi. pose proof (access_facts tj x w' Tj Aj) as Wj. cbn in Wi.
    destruct Wi as (opi & ri & gi & Epi & Gi & Wi). pose proof (b_range (op_key kf opi)) as Bi. destruct x as [p|p|p].
    - exfalso. destruct w'.
      + destruct Wj as (opj & rj & gj & Epj & Gj & Wj). pose proof (b_range (op_key kf opj)) as Bj.
        destruct Wi as [(_ & -> & _ & Li)|Wi], Wj as [(_ & Ej & _ & Lj)|Wj].
        * refine (f_excl i j ti tj _ _ Hne Hi Hj Li Lj). lia.
        * pose proof (f_hand_range tj _ Tj Wj). lia.
        * pose proof (f_hand_range ti _ Ti Wi). lia.
        * exact (f_hands i j ti tj p Hne Hi Hj Wi Wj).
      + destruct Wj as (opj & rj & gj & Epj & Gj & Wj & Wj'). pose proof (b_range (op_key kf opj)) as Bj.
        destruct Wi as [(_ & -> & Wi & Li)|Wi]; [|exact (f_hand_chain ti _ _ _ Ti Wi Gj Wj)].
        apply elem_of_cons in Wj as [Ej|Wj]; [|pose proof (f_chain_range _ _ _ Gj Wj); lia].
        rewrite <- Ej in Gj. assert (gj = gi) as -> by congruence. apply (Wj' Ej). exact Wi.
    - destruct w'.
      + exfalso. destruct Wj as (opj & rj & gj & Epj & Gj & Wj). pose proof (b_range (op_key kf opj)) as Bj.
        destruct Wi as [(e & _ & Wi)|(q & v & _ & Li & Ei & _)], Wj as [(e' & _ & Wj)|(q' & v' & _ & Lj & Ej & _)].
        * exact (f_hands i j ti tj p Hne Hi Hj Wi Wj).
        * apply (f_hand_chain ti _ _ _ Ti Wi Gj). rewrite Ej. apply lend_elem.
        * apply (f_hand_chain tj _ _ _ Tj Wj Gi). rewrite Ei. apply lend_elem.
        * refine (f_excl i j ti tj p _ Hne Hi Hj Li Lj). apply (node_lt _ _ _ Gi). rewrite Ei. apply lend_elem.
      + split; [reflexivity|]. destruct Wj as (opj & rj & gj & Epj & Gj & Wj).
        destruct Wi as [(e & _ & Wi)|(q & v & Ei & Li & El & -> & Hs & Ho)]; [exfalso; exact (f_hand_chain ti _ _ _ Ti Wi Gj Wj)|].
        exists p, q, v, ri. auto.
    - contradiction.
  Qed.
End insert.

(** ** erases and lookups *)
Section erase.
  Context {K V : Type} (kf : V -> K) (hash : K -> Z) (keq : K -> K -> bool) (bc E : nat).
  Hypothesis keq_refl : forall a, keq a a = true.
  Hypothesis keq_sym : forall a b, keq a b = true -> keq b a = true.
  Hypothesis keq_trans : forall a b c, keq a b = true -> keq b c = true -> keq a c = true.
  Hypothesis Hhash : forall a b, keq a b = true -> hash a = hash b.
  Hypothesis Hbc : (0 < bc)%nat.
  Hypothesis HE : (0 < E)%nat.
  Hypothesis Hmax : Z.of_nat (bc + E) <= INT_MAX.
  Context (M0 : list V) (s0 : cshared V) (G0 : list (option V * list (nat * V))) (F0 : list nat).
  Hypothesis I0 : cinv (K:=K) kf hash keq bc E M0 s0 [] G0 F0.
  Context (s : cshared V) (ls : list (cthread K V)) (Gn F : list nat).
  Hypothesis I : einv kf hash keq bc E s0 G0 F0 s ls Gn F.
  Notation n := (bc + E)%nat.
  Let e_excl := ef_excl kf hash keq bc E keq_refl keq_sym keq_trans Hhash Hbc HE Hmax M0 s0 G0 F0 I0 s ls Gn F I.
  Let e_locks := ef_locks kf hash keq bc E keq_refl keq_sym keq_trans Hhash Hbc HE Hmax M0 s0 G0 F0 I0 s ls Gn F I.

  Lemma erase_races i j ti tj x w' : i <> j -> ls !! i = Some ti -> ls !! j = Some tj ->
    plain_access kf hash bc ti = Some (x, true) -> plain_access kf hash bc tj = Some (x, w') ->
    w' = false /\ exists p q o, x = OFFSET q /\ c_pc ti = XPut p q o /\ q ∉ locks_of (c_pc tj).
  Proof using All.
    intros Hne Hi Hj Ai Aj. pose proof (elem_of_list_lookup_2 _ _ _ Hi) as Ti. pose proof (elem_of_list_lookup_2 _ _ _ Hj) as Tj.
    assert (Hw : forall k tk, ls !! k = Some tk -> plain_access kf hash bc tk = Some (x, true) ->
      (exists p q o, x = OFFSET q /\ c_pc tk = XPut p q o) \/ (exists p q y z, x = EXCESS z /\ c_pc tk = XPush p q y /\ element_access (eproj tk) = Some z)).
    { intros k tk Hk Ak. pose proof (elem_of_list_lookup_2 _ _ _ Hk) as Tk. destruct (ei_tk _ _ _ _ _ _ _ _ _ _ _ _ I tk Tk) as [_ T]. unfold plain_access in Ak.
      destruct (c_prog tk) as [|op rest]; [discriminate|]. destruct (c_pc tk) eqn:Epc; try discriminate; cbn [kn] in T; try contradiction.
      - left. injection Ak as <-. eauto.
      - right. destruct T as (_ & _ & Eq & _). unfold excess_access in Ak. rewrite Eq in Ak. destruct (q_pc t) eqn:Eq2; try discriminate. injection Ak as <-.
        exists p, q, t, pos. split; [reflexivity|]. split; [reflexivity|]. unfold eproj, element_access. rewrite Epc, Eq, Eq2. reflexivity. }
    assert (Hno : forall p q o, x = OFFSET q -> c_pc ti = XPut p q o -> q ∉ locks_of (c_pc tj)).
    { intros p q o _ Ei Hl. assert (Li : q ∈ locks_of (c_pc ti)) by (rewrite Ei; right; left). destruct (e_locks ti q Ti Li) as (_ & _ & _ & Hq). exact (e_excl i j ti tj q Hq Hne Hi Hj Li Hl). }
    destruct (Hw i ti Hi Ai) as [(p & q & o & -> & Ei)|(p & q & y & z & -> & Ei & Ez)].
    - destruct w'; [|split; [reflexivity|]; exists p, q, o; split; [reflexivity|]; split; [exact Ei|]; eauto].
      exfalso. destruct (Hw j tj Hj Aj) as [(p' & q' & o' & Eq & Ej)|(p' & q' & y & z & Eq & _)]; [|discriminate]. injection Eq as <-.
      apply (Hno p q o eq_refl Ei). rewrite Ej. right. left.
    - exfalso. assert (Ez' : element_access (eproj tj) = Some z).
      { destruct w'.
        - destruct (Hw j tj Hj Aj) as [(p' & q' & o' & Eq & _)|(p' & q' & y' & z' & Eq & _ & Ez')]; [discriminate|]. injection Eq as <-. exact Ez'.
        - destruct (ei_tk _ _ _ _ _ _ _ _ _ _ _ _ I tj Tj) as [_ T]. unfold plain_access in Aj.
          destruct (c_prog tj) as [|op rest]; [discriminate|]. destruct (c_pc tj) eqn:Epc; try discriminate; cbn [kn] in T; try contradiction.
          destruct T as (_ & _ & Eq & _). unfold excess_access in Aj. rewrite Eq in Aj. destruct (q_pc t); discriminate. }
      apply Hne. eapply (no_race E vm (fun _ => True) _ _ _ i j (eproj ti) (eproj tj) z (ei_vec _ _ _ _ _ _ _ _ _ _ _ _ I)); [rewrite list_lookup_fmap, Hi; reflexivity|rewrite list_lookup_fmap, Hj; reflexivity|exact Ez|exact Ez'].
  Qed.
  (** what follows the successor of [q] is not [q] *)
  Lemma unlink_nonzero k p q po : q ∈ nodes G0 (bkt hash bc k) -> leads_to s q p -> c_off s !! p = Some po -> po <> 0 -> c_off s !! q <> Some (- po).
  Proof using All.
    intros Hq Hn Hp Hpo Hz. destruct (bucket_of_bkt hash keq bc E keq_refl keq_sym keq_trans Hhash Hbc HE Hmax k) as [_ Hb].
    apply elem_of_list_lookup in Hq as [a Ha].
    assert (Hn2 : leads_to s p q). { destruct Hn as (o & H1 & H2 & H3). exists po. split; [exact Hp|]. split; [exact Hpo|]. rewrite Hz in H1. injection H1 as <-. lia. }
    pose proof (ef_nxt kf hash keq bc E keq_refl keq_sym keq_trans Hhash Hbc HE Hmax M0 s0 G0 F0 I0 s ls Gn F I _ a q p Hb Ha Hn) as (a1 & L1 & H1 & _).
    pose proof (ef_nxt kf hash keq bc E keq_refl keq_sym keq_trans Hhash Hbc HE Hmax M0 s0 G0 F0 I0 s ls Gn F I _ a1 p q Hb H1 Hn2) as (a2 & L2 & H2 & _).
    pose proof (ef_idx kf hash keq bc E keq_refl keq_sym keq_trans Hhash Hbc HE Hmax M0 s0 G0 F0 I0 s ls Gn F I _ a a2 q Hb Ha H2). lia.
  Qed.
End erase.
