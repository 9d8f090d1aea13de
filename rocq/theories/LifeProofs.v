From Verif Require Import Base LifeModel LifeSpec.

Lemma omap_insert_none (a : elements) i x : a !! i = Some None -> omap id (<[i := Some x]> a) ≡ₚ x :: omap id a.
Proof.
  intros H. assert (L : (i < length a)%nat) by (apply lookup_lt_Some in H; exact H).
  assert (E : omap id a = omap id (take i a) ++ omap id (drop (S i) a)).
  { rewrite <- (take_drop_middle a i None H) at 1. rewrite omap_app. reflexivity. }
  rewrite (insert_take_drop a i _ L), omap_app, E. cbn [omap list_omap id]. unfold id at 1. apply Permutation_sym, Permutation_middle.
Qed.
Lemma full_no_raw (a : elements) : length (omap id a) = length a -> None ∉ a.
Proof.
  induction a as [|[x|] a IH]; cbn; intros H Hin; [inversion Hin| |].
  - apply elem_of_cons in Hin. destruct Hin as [?|Hin]; [discriminate|]. apply IH; [|exact Hin]. apply Nat.succ_inj. exact H.
  - assert (B : (length (omap id a) <= length a)%nat). { clear. induction a as [|[x|] a IH]; cbn in *; lia. } unfold id in *. cbn in *. lia.
Qed.
Lemma construct_all is s a : NoDup is -> (forall i, i ∈ is -> a !! i = Some None) ->
  exists a', fold_left construct_step is (s, a) = ({| l_next := l_next s + length is; l_destroyed := l_destroyed s; l_arrays := l_arrays s |}, a')
    /\ omap id a' ≡ₚ seq (l_next s) (length is) ++ omap id a /\ length a' = length a.
Proof.
  revert s a. induction is as [|i is IH]; intros s a Hnd Hr.
  - exists a. cbn. rewrite Nat.add_0_r. destruct s; auto.
  - cbn [fold_left]. unfold construct_step at 2. apply NoDup_cons in Hnd. destruct Hnd as [Hi Hnd].
    destruct (IH {| l_next := S (l_next s); l_destroyed := l_destroyed s; l_arrays := l_arrays s |} (<[i := Some (l_next s)]> a)) as (a' & E & P & L).
    + exact Hnd.
    + intros j Hj. rewrite list_lookup_insert_ne by (intros ->; contradiction). apply Hr. right. exact Hj.
    + exists a'. rewrite E. cbn in *. split; [f_equal; f_equal; lia|]. split; [|rewrite L; apply insert_length].
      rewrite P, omap_insert_none by (apply Hr; left). apply Permutation_sym, Permutation_middle.
Qed.
Lemma destroy_all (a : elements) is s : (forall i, i ∈ is -> exists x, a !! i = Some (Some x)) ->
  fold_left (destroy_step a) is (Ret s) = Ret {| l_next := l_next s; l_destroyed := l_destroyed s ++ omap (fun i => mjoin (a !! i)) is; l_arrays := l_arrays s |}.
Proof.
  revert s. induction is as [|i is IH]; intros s H.
  - cbn. rewrite app_nil_r. destruct s; reflexivity.
  - destruct (H i) as [x Hx]; [left|]. cbn [fold_left]. unfold destroy_step at 2. cbn [obind]. rewrite Hx.
    rewrite IH by (intros j Hj; apply H; right; exact Hj). cbn. rewrite Hx. cbn. rewrite <- app_assoc. reflexivity.
Qed.
Lemma omap_positions (a : elements) : omap (fun i => mjoin (a !! i)) (seq 0 (length a)) = omap id a.
Proof.
  induction a as [|o a IH]; [reflexivity|]. cbn [length seq]. rewrite <- seq_shift. cbn.
  assert (E : omap (fun i => mjoin ((o :: a) !! i)) (S <$> seq 0 (length a)) = omap id a).
  { rewrite <- IH. generalize (seq 0 (length a)). intros l. induction l as [|i l IHl]; [reflexivity|]. cbn. rewrite <- IHl. reflexivity. }
  change (map S) with (fmap (M := list) S). destruct o as [x|]; cbn; [f_equal; exact E|exact E].
Qed.

Local Arguments ldeallocate_filled : simpl never.
Local Arguments lallocate_filled : simpl never.
Local Arguments lcopy : simpl never.
Local Arguments ldestroy_host : simpl never.

Section life.
  Context (ord : nat -> list nat) (Hord : forall n, ord n ≡ₚ seq 0 n).

  Lemma ord_in n i : i ∈ ord n -> (i < n)%nat.
  Proof. rewrite (Hord n). intros H. apply elem_of_seq in H. lia. Qed.
  Lemma created_array s n : exists a, lallocate_filled ord s n = ({| l_next := l_next s + n; l_destroyed := l_destroyed s; l_arrays := l_arrays s |}, a)
    /\ omap id a ≡ₚ seq (l_next s) n /\ length a = n /\ None ∉ a.
  Proof.
    destruct (construct_all (ord n) s (replicate n None)) as (a & E & P & L).
    - rewrite (Hord n). apply NoDup_seq.
    - intros i Hi. apply lookup_replicate. split; [reflexivity|]. apply ord_in. exact Hi.
    - assert (Ln : length (ord n) = n) by (rewrite (Hord n); apply seq_length). rewrite Ln in *. rewrite replicate_length in L.
      assert (R : omap id (replicate n (None (A := nat))) = []) by (clear; induction n as [|n IH]; [reflexivity|exact IH]). rewrite R, app_nil_r in P.
      exists a. split; [exact E|]. split; [exact P|]. split; [exact L|]. apply full_no_raw. rewrite P, seq_length, L. reflexivity.
  Qed.
  Lemma destroyed_array s a : None ∉ a -> exists l, l ≡ₚ omap id a /\
    ldeallocate_filled false ord s a = Ret {| l_next := l_next s; l_destroyed := l_destroyed s ++ l; l_arrays := l_arrays s |}.
  Proof.
    intros H. exists (omap (fun i => mjoin (a !! i)) (ord (length a))). split.
    - rewrite (Hord (length a)), omap_positions. reflexivity.
    - unfold ldeallocate_filled. apply destroy_all. intros i Hi. apply ord_in in Hi. destruct (lookup_lt_is_Some_2 a i Hi) as [[x|] Hx]; [eauto|].
      destruct H. eapply elem_of_list_lookup_2. exact Hx.
  Qed.
  Lemma held_add s a : held (with_arrays s (l_arrays s ++ [a])) = held s ++ omap id a.
  Proof. unfold held. cbn. rewrite concat_app, omap_app. cbn. rewrite app_nil_r. reflexivity. Qed.
  Lemma held_del (s s' : lives) k a : l_arrays s !! k = Some a -> l_arrays s' = l_arrays s -> held s ≡ₚ omap id a ++ held (with_arrays s' (<[k := []]> (l_arrays s'))).
  Proof.
    intros H E. unfold held. cbn. rewrite E. assert (L : (k < length (l_arrays s))%nat) by (apply lookup_lt_Some in H; exact H).
    rewrite (insert_take_drop _ k _ L). rewrite <- (take_drop_middle (l_arrays s) k a H) at 1. rewrite !concat_app, !omap_app. cbn. rewrite omap_app.
    rewrite !app_assoc. apply Permutation_app_tail. apply Permutation_app_comm.
  Qed.

  Lemma balanced_create s n : balanced_lives s -> exists s', let (s1, a) := lallocate_filled ord s n in Ret (with_arrays s1 (l_arrays s1 ++ [a])) = Ret s' /\
    balanced_lives s' /\ length (l_arrays s') = S (length (l_arrays s)).
  Proof.
    intros [P R]. destruct (created_array s n) as (a & E & Pa & L & Ra). rewrite E. eexists. split; [reflexivity|]. split; [split|].
    - rewrite held_add. cbn. rewrite seq_app. cbn. rewrite Pa, P. unfold held. cbn. rewrite <- app_assoc. reflexivity.
    - cbn. intros b Hb. apply elem_of_app in Hb. destruct Hb as [Hb|Hb]; [apply R; exact Hb|]. apply elem_of_list_singleton in Hb. subst b. exact Ra.
    - cbn. rewrite app_length. cbn. lia.
  Qed.
  Lemma balanced_destroy s k : balanced_lives s -> (k < length (l_arrays s))%nat -> exists s',
    match l_arrays s !! k with Some a => let! s := ldeallocate_filled false ord s a in Ret (with_arrays s (<[k := []]> (l_arrays s))) | None => UB end = Ret s' /\
    balanced_lives s' /\ length (l_arrays s') = length (l_arrays s).
  Proof.
    intros [P R] Hk. destruct (lookup_lt_is_Some_2 _ _ Hk) as [a Ha]. rewrite Ha.
    destruct (destroyed_array s a) as (l & Pl & E); [apply R; eapply elem_of_list_lookup_2; exact Ha|]. rewrite E. cbn [obind]. eexists. split; [reflexivity|]. split; [split|].
    - cbn [l_next with_arrays l_destroyed l_arrays].
      etransitivity; [exact P|]. rewrite <- app_assoc. apply Permutation_app_head.
      etransitivity; [exact (held_del s {| l_next := l_next s; l_destroyed := l_destroyed s ++ l; l_arrays := l_arrays s |} k a Ha eq_refl)|].
      apply Permutation_app; [symmetry; exact Pl|reflexivity].
    - cbn. intros b Hb Hn. apply elem_of_list_lookup in Hb. destruct Hb as [i Hi]. destruct (decide (i = k)) as [->|Hne].
      + rewrite list_lookup_insert in Hi by exact Hk. injection Hi as <-. inversion Hn.
      + rewrite list_lookup_insert_ne in Hi by congruence. apply (R b); [eapply elem_of_list_lookup_2; exact Hi|exact Hn].
    - cbn. apply insert_length.
  Qed.

  Lemma life_step_ok dc s op c : balanced_lives s -> length (l_arrays s) = c -> creates_or_destroys dc op -> names_ok c [op] ->
    exists s', life_step dc false ord s op = Ret s' /\ balanced_lives s' /\ length (l_arrays s') = (c + creates op)%nat.
  Proof.
    intros B L Hop [Hn _]. destruct op; cbn in Hop, Hn |- *; try contradiction.
    - subst dc. unfold lcreate_device. destruct (balanced_create s n B) as (s' & H). destruct (lallocate_filled ord s n) as [s1 a]. destruct H as (E & B' & L').
      exists s'. cbn. split; [exact E|]. split; [exact B'|]. lia.
    - unfold lcreate_host. destruct (balanced_create s n B) as (s' & H). destruct (lallocate_filled ord s n) as [s1 a]. destruct H as (E & B' & L').
      exists s'. split; [exact E|]. split; [exact B'|]. lia.
    - subst dc. unfold ldestroy_device. destruct (balanced_destroy s k B ltac:(lia)) as (s' & E & B' & L'). exists s'. split; [exact E|]. split; [exact B'|]. lia.
    - unfold ldestroy_host. destruct (balanced_destroy s k B ltac:(lia)) as (s' & E & B' & L'). exists s'. split; [exact E|]. split; [exact B'|]. lia.
  Qed.
  Lemma life_run_ok dc ops s c : balanced_lives s -> length (l_arrays s) = c -> (forall op, op ∈ ops -> creates_or_destroys dc op) -> names_ok c ops ->
    exists s', life_run dc false ord s ops = Ret s' /\ balanced_lives s'.
  Proof.
    revert s c. induction ops as [|op ops IH]; intros s c B L Hops Hn; [exists s; auto|]. destruct Hn as [Hn1 Hn2].
    destruct (life_step_ok dc s op c B L) as (s1 & E & B1 & L1); [apply Hops; left|split; [exact Hn1|exact Logic.I]|]. cbn. rewrite E. cbn.
    apply (IH s1 _ B1 L1); [intros o Ho; apply Hops; right; exact Ho|exact Hn2].
  Qed.
  Lemma life_run_trivial dc ops s c : length (l_arrays s) = c -> names_ok c ops -> exists s', life_run dc true ord s ops = Ret s' /\ l_destroyed s' = l_destroyed s.
  Proof.
    revert s c. induction ops as [|op ops IH]; intros s c L Hn; [exists s; auto|]. destruct Hn as [Hn1 Hn2].
    assert (S1 : exists s1, life_step dc true ord s op = Ret s1 /\ l_destroyed s1 = l_destroyed s /\ length (l_arrays s1) = (c + creates op)%nat).
    { destruct op; cbn in Hn1 |- *.
      - unfold lcreate_device, lcreate_host. destruct (created_array s n) as (a & E & _). rewrite E. destruct dc; cbn; eexists; (split; [reflexivity|]); cbn; rewrite app_length; cbn; split; try reflexivity; lia.
      - unfold lcreate_host. destruct (created_array s n) as (a & E & _). rewrite E. eexists; (split; [reflexivity|]); cbn; rewrite app_length; cbn; split; try reflexivity; lia.
      - destruct (lookup_lt_is_Some_2 (l_arrays s) k) as [a Ha]; [lia|]. rewrite Ha. unfold ldestroy_device, ldeallocate_filled. destruct dc; cbn; eexists; (split; [reflexivity|]); cbn; rewrite insert_length; split; try reflexivity; lia.
      - destruct (lookup_lt_is_Some_2 (l_arrays s) k) as [a Ha]; [lia|]. rewrite Ha. cbn. eexists; (split; [reflexivity|]); cbn; rewrite insert_length; split; try reflexivity; lia.
      - destruct (lookup_lt_is_Some_2 (l_arrays s) k) as [a Ha]; [lia|]. rewrite Ha. cbn. eexists; (split; [reflexivity|]); cbn; rewrite app_length; cbn; split; try reflexivity; lia.
      - destruct Hn1 as [H1 H2]. destruct (lookup_lt_is_Some_2 (l_arrays s) k) as [a Ha]; [lia|]. destruct (lookup_lt_is_Some_2 (l_arrays s) j) as [b Hb]; [lia|]. rewrite Ha, Hb.
        eexists; (split; [reflexivity|]); cbn; rewrite insert_length; split; try reflexivity; lia. }
    destruct S1 as (s1 & E & D & L1). cbn. rewrite E. cbn. destruct (IH s1 _ L1 Hn2) as (s' & E' & D'). exists s'. rewrite D'. auto.
  Qed.

  Lemma copy_all (a : elements) : lcopy a (length a) (replicate (length a) None) = a.
  Proof. unfold lcopy. rewrite replicate_length, !Nat.leb_refl. cbn. rewrite firstn_all, drop_ge by (rewrite replicate_length; lia). apply app_nil_r. Qed.
  Lemma copy_all' (a : elements) n : length a = n -> lcopy a n (replicate n None) = a.
  Proof. intros <-. apply copy_all. Qed.
  Lemma host_compiled n : exists s, life_run false false ord lives0 [LCreateDevice n] = Ret s /\ l_next s = n /\ l_destroyed s ≡ₚ seq 0 n /\ held s ≡ₚ seq 0 n.
  Proof.
    destruct (created_array lives0 n) as (a & E & P & L & R). cbn in *. unfold lcreate_device, lcreate_host. rewrite E. cbn.
    destruct (destroyed_array {| l_next := n; l_destroyed := []; l_arrays := [] |} a R) as (l & Pl & E2). unfold ldestroy_host. rewrite E2. cbn.
    eexists. split; [reflexivity|]. cbn. split; [reflexivity|]. split; [rewrite Pl; exact P|]. unfold held, lcopy_create. cbn. rewrite (copy_all' a n L), app_nil_r. exact P.
  Qed.
  Lemma host_compiled2 n : exists s, life_run false false ord lives0 [LCreateDevice n; LDestroyDevice 0] = Ret s /\ l_next s = n /\ l_destroyed s ≡ₚ seq 0 n ++ seq 0 n.
  Proof.
    destruct (created_array lives0 n) as (a & E & P & L & R). cbn in *. unfold lcreate_device, lcreate_host. rewrite E. cbn.
    destruct (destroyed_array {| l_next := n; l_destroyed := []; l_arrays := [] |} a R) as (l & Pl & E2). unfold ldestroy_host. rewrite E2. cbn.
    unfold lcopy_create. rewrite (copy_all' a n L). cbn. unfold ldestroy_device, ldestroy_host, lcopy_create. rewrite copy_all.
    destruct (destroyed_array (with_arrays {| l_next := n; l_destroyed := l; l_arrays := [] |} [a]) a R) as (l2 & Pl2 & E3). cbn in E3. rewrite E3. cbn.
    eexists. split; [reflexivity|]. cbn. split; [reflexivity|]. rewrite Pl, Pl2, P. reflexivity.
  Qed.
  Lemma copied_twice dc n : exists s, life_run dc false ord lives0 [LCreateHost n; LCopyCreate 0 n; LDestroyHost 0; LDestroyHost 1] = Ret s /\ l_next s = n /\ l_destroyed s ≡ₚ seq 0 n ++ seq 0 n.
  Proof.
    destruct (created_array lives0 n) as (a & E & P & L & R). cbn in *. unfold lcreate_host. rewrite E. cbn. unfold lcopy_create. rewrite (copy_all' a n L).
    unfold ldestroy_host.
    destruct (destroyed_array (with_arrays {| l_next := n; l_destroyed := []; l_arrays := [a] |} [a; a]) a R) as (l & Pl & E2). cbn in E2. unfold with_arrays in *. cbn in *. rewrite E2. cbn.
    destruct (destroyed_array {| l_next := n; l_destroyed := l; l_arrays := [[]; a] |} a R) as (l2 & Pl2 & E3). cbn in E3. rewrite E3. cbn.
    eexists. split; [reflexivity|]. cbn. split; [reflexivity|]. rewrite Pl, Pl2, P. reflexivity.
  Qed.
End life.
