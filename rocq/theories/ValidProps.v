(** C89: what valid() of an unordered container certifies, in any state of the container's memory - reached by calls or not *)
From Verif Require Import Base Conc SlotModel VectorModel UnorderedModel UnorderedSpec Lifetime LoopSpec ValidSpec ValidProofs ValidNext ValidEnds UnorderedProps.

(** _partial: a container on which valid() returns true answers every lookup correctly, but valid() does not look at the positions in the
    list of free entries: C89_next_insert_refuted. *)
Theorem C89_valid_certifies_partial : forall (K V : Type) (kf : V -> K) (hash : K -> Z) (keq : K -> K -> bool) (ord : nat -> list nat),
  key_equality keq -> hash_respects keq hash -> any_order ord -> forall u : utab V, arrays_ok u -> u_valid kf hash keq ord u = Ret true ->
  (** every occupied entry holds a value, ... *)
  (forall p, u_occ u !! p = Some true -> exists v, u_value u (Z.of_nat p) = Ret v) /\
  (** ... a lookup of its key leads to it, ... *)
  (forall k p v, holds_at u p v -> keq (kf v) k = true -> u_find kf hash keq u k = Ret (Z.of_nat p) /\ u_contains kf hash keq u k = Ret true /\ u_count_of kf hash keq u k = Ret 1) /\
  (** ... a lookup of any other key finds nothing, and terminates, ... *)
  (forall k, (forall p v, holds_at u p v -> keq (kf v) k = false) -> u_find kf hash keq u k = Ret (total_count u) /\ u_contains kf hash keq u k = Ret false /\ u_count_of kf hash keq u k = Ret 0) /\
  (** ... no two entries have equal keys, ... *)
  (forall p q v w, holds_at u p v -> holds_at u q w -> keq (kf v) (kf w) = true -> p = q) /\
  (** ... size() is the number of occupied entries, the lists of the buckets share no entry, and no lock is left behind *)
  u_size u = Ret (bcount (u_occ u)) /\ lists_separate (u_off u) (Z.to_nat (u_bc u)) /\ bcount (u_locks u) = 0 /\ v_valid (u_excess u) = true.
Proof.
  intros K V kf hash keq ord Hk Hh Ho u Hu Hv.
  assert (F : forall k p v, holds_at u p v -> keq (kf v) k = true -> u_find kf hash keq u k = Ret (Z.of_nat p)) by (intros; eapply stored_found; eauto).
  assert (N : forall k, (forall p v, holds_at u p v -> keq (kf v) k = false) -> u_find kf hash keq u k = Ret (total_count u)) by (intros; eapply absent_not_found; eauto).
  split; [intros p E; destruct (occupied_holds kf hash keq ord Hk Hh Ho u Hu Hv p E) as (v & [_ H] & _); eauto|].
  split.
  { intros k p v Hp E. pose proof (F k p v Hp E) as P. split; [exact P|]. destruct Hp as [Hp _]. apply lookup_lt_Some in Hp.
    assert (C : u_contains kf hash keq u k = Ret true) by (unfold u_contains; rewrite P; cbn [obind]; unfold total_count; rewrite (proj2 (Z.eqb_neq _ _)) by lia; reflexivity).
    split; [exact C|]. unfold u_count_of. rewrite C. reflexivity. }
  split.
  { intros k H. pose proof (N k H) as P. split; [exact P|].
    assert (C : u_contains kf hash keq u k = Ret false) by (unfold u_contains; rewrite P; cbn [obind]; rewrite Z.eqb_refl; reflexivity).
    split; [exact C|]. unfold u_count_of. rewrite C. reflexivity. }
  split; [intros p q v w; apply (keys_differ kf hash keq ord Hk Hh Ho u Hu Hv)|].
  split; [apply (size_counts kf hash keq ord Hk Hh Ho u Hu Hv)|].
  split; [apply (separate kf hash keq ord Hk Hh Ho u Hu Hv)|].
  destruct (parts kf hash keq ord Hk Hh Ho u Hu Hv) as (_ & _ & _ & _ & _ & L & E). split; [apply Z.eqb_eq; exact L|exact E].
Qed.
Print Assumptions C89_valid_certifies_partial.

(** the hypotheses are met by a table with two chains and a re-used entry *)
Example C89_ex : exists u0 u, ex_table = Ret (u0, u) /\ arrays_ok u /\ u_valid (fun v => v) ex_hash Z.eqb (fun n => rev (seq 0 n)) u = Ret true /\
  holds_at u 6 2 /\ u_find (fun v => v) ex_hash Z.eqb u 2 = Ret 6 /\ u_find (fun v => v) ex_hash Z.eqb u 1 = Ret 7.
Proof. eexists _, _. split; [vm_compute; reflexivity|]. split; [unfold arrays_ok; vm_compute; repeat split; discriminate|]. split; [vm_compute; reflexivity|]. split; [split; vm_compute; reflexivity|]. split; vm_compute; reflexivity. Qed.

(** what is missing: two buckets, entries 2 and 3 for colliding values.  Values 1 and 2 are stored in the entries 0 and 2, and the list of
    free entries wrongly offers entry 2 once more.  valid() returns true, and the next insertion destroys the stored value 2: insert(3) reports
    success, and contains(2) turns from true to false. *)
Definition wrong_free : utab Z := {| u_bc := 2; u_values := [Some 1; None; Some 2; None]; u_off := [2; 0; 0; 0]; u_occ := [true; false; true; false];
  u_locks := [false; false; false; false]; u_count := 2;
  u_excess := {| v_n := 1; v_data := [Some 2; None]; v_occ := [true; false]; v_locks := [false; false]; v_ev := [] |}; u_indices := [0; 0; 0; 0]; u_ev := [] |}.
Theorem C89_next_insert_refuted : exists (u : utab Z) (hash : Z -> Z), arrays_ok u /\ key_equality Z.eqb /\ hash_respects Z.eqb hash /\
  u_valid (fun v => v) hash Z.eqb (fun n => seq 0 n) u = Ret true /\ u_contains (fun v => v) hash Z.eqb u 2 = Ret true /\
  exists u' p, u_insert (fun v => v) hash Z.eqb 2 u 3 = Ret (u', p, true) /\
    u_contains (fun v => v) hash Z.eqb u' 2 = Ret false.
Proof.
  exists wrong_free, (fun _ => 0). split; [unfold arrays_ok; vm_compute; repeat split; discriminate|]. split; [split; [apply Z.eqb_refl|split; intros *; rewrite !Z.eqb_eq; congruence]|].
  split; [intros a b; rewrite Z.eqb_eq; congruence|]. split; [vm_compute; reflexivity|]. split; [vm_compute; reflexivity|]. eexists _, _. split; [vm_compute; reflexivity|]. vm_compute. 
  reflexivity.
Qed.
Print Assumptions C89_next_insert_refuted.

(** ... and only the list of free entries is missing: if it is intact (free_ok, ValidSpec.v) - as it is in every container in use - then from a
    state on which valid() returns true, every sequence of calls runs and gives the results of the set of the stored values, and keeps valid(). *)
Theorem C89_intact_free_list : forall (K V : Type) (kf : V -> K) (hash : K -> Z) (keq : K -> K -> bool) (opt : bool) (ord : nat -> list nat),
  key_equality keq -> hash_respects keq hash -> any_order ord -> forall (u : utab V) (st : list nat), arrays_ok u -> u_bc u < total_count u ->
  u_valid kf hash keq ord u = Ret true -> free_ok opt u st ->
  forall fuel, (2 <= fuel)%nat -> forall ops : list (uop K V), Forall (uop_ok (u_bc u)) ops ->
  exists u' rs M0 M (bucket : K -> Z), (forall v, v ∈ M0 <-> exists p, holds_at u p v) /\ keys_distinct kf keq M0 /\ (forall k, u_bucket hash u k = Ret (bucket k)) /\
    u_run kf hash keq opt ord fuel u ops = Ret (u', rs) /\ spec_urun kf keq bucket (total_count u) M0 ops rs M /\
    keys_distinct kf keq M /\ u_valid kf hash keq ord u' = Ret true /\ (forall v, v ∈ M <-> exists p, holds_at u' p v).
Proof.
  intros K V kf hash keq opt ord Hk Hh Ho u st Hu Hlt Hv Hf fuel Hfu ops Hops. unfold total_count in Hlt.
  apply (runs_from_valid kf hash keq opt ord Hk Hh Ho u Hu Hv st Hf); [|exact Hfu|exact Hops]. destruct Hu. lia.
Qed.
Theorem C89_in_use : forall (K V : Type) (kf : V -> K) (hash : K -> Z) (keq : K -> K -> bool) (opt : bool) (ord : nat -> list nat),
  key_equality keq -> hash_respects keq hash -> any_order ord -> forall buckets excess, sizes_ok buckets excess -> forall fuel, (2 <= fuel)%nat ->
  forall u0 u, reachable kf hash keq opt ord fuel buckets excess u0 u ->
  arrays_ok u /\ u_valid kf hash keq ord u = Ret true /\ u_bc u < total_count u /\ exists st, free_ok opt u st.
Proof.
  intros K V kf hash keq opt ord Hk Hh Ho bc E Hs fuel Hfu u0 u (junk & ops & rs & Hops & E0 & E1).
  destruct (free_reached kf hash keq opt ord Hk Hh Ho bc E Hs fuel junk ops u0 u rs Hfu Hops E0 E1) as (H1 & H2 & H3 & H4).
  split; [exact H1|]. split; [exact H2|]. split; [unfold total_count; destruct H1; lia|exact H4].
Qed.
Print Assumptions C89_intact_free_list.
Print Assumptions C89_in_use.

(** a state no sequence of calls leads to: value 1 behind bucket 0, whose own entry holds nothing, the list of free entries starts
    with an entry in the middle, and the free entries are linked to each other *)
Definition odd_table : utab Z := {| u_bc := 2; u_values := [None; None; None; Some 1; None]; u_off := [3; 0; 2; 0; -2]; u_occ := [false; false; false; true; false];
  u_locks := replicate 5 false; u_count := 1;
  u_excess := {| v_n := 2; v_data := [Some 4; Some 2; None]; v_occ := [true; true; false]; v_locks := replicate 3 false; v_ev := [] |}; u_indices := replicate 5 7; u_ev := [] |}.
Example C89_free_ex : arrays_ok odd_table /\ u_valid (fun v => v) (fun _ => 0) Z.eqb (fun n => seq 0 n) odd_table = Ret true /\ free_ok true odd_table [4; 2]%nat /\
  exists u', u_run (fun v => v) (fun _ => 0) Z.eqb true (fun n => seq 0 n) 2 odd_table [UInsert 2; UInsert 3; UInsert 4; UErase 1; UContains 2; USize; UValid] =
    Ret (u', [UIns true (Some 2); UIns true (Some 3); UIns true (Some 4); UNum 1; UBool true; UNum 3; UBool true]).
Proof.
  split; [unfold arrays_ok; vm_compute; repeat split; discriminate|]. split; [vm_compute; reflexivity|]. split.
  2: { eexists. vm_compute. reflexivity. }
  split; try reflexivity; try discriminate.
  - intros p. do 6 (destruct p as [|p]; [vm_compute; try discriminate; auto|]). discriminate.
  - apply (bool_decide_unpack (NoDup [4; 2]%nat)). vm_compute. exact Logic.I.
  - intros p. change (Z.to_nat (u_bc odd_table)) with 2%nat. rewrite !elem_of_cons, elem_of_nil. split.
    + intros [->|[->|[]]]; (split; [lia|reflexivity]).
    + intros [H1 H2]. do 5 (destruct p as [|p]; [try lia; try discriminate; auto|]). discriminate.
  - intros p o. change (Z.to_nat (u_bc odd_table)) with 2%nat. intros H E N.
    do 5 (destruct p as [|p]; [cbn in E; injection E as <-; vm_compute in H |- *; try congruence; try (destruct H; [lia|discriminate])|]). discriminate.
  - split; reflexivity.
  - change (length (u_occ odd_table) - Z.to_nat (u_bc odd_table))%nat with 3%nat. intros i Hi. do 3 (destruct i as [|i]; [split; reflexivity|]). lia.
Qed.

(** C90: valid() returns in every state - circular lists and links that lead nowhere included - and true exactly on the intact ones.
    _partial: the counter of the elements has to lie between 0 and the number of entries (C90_count_refuted); occupied entries hold objects. *)
Theorem C90_valid_decides_partial : forall (K V : Type) (kf : V -> K) (hash : K -> Z) (keq : K -> K -> bool) (ord : nat -> list nat), any_order ord ->
  forall u : utab V, arrays_ok u -> 0 <= u_count u <= total_count u -> (forall p, u_occ u !! p = Some true -> exists v, u_value u (Z.of_nat p) = Ret v) ->
  exists b, u_valid kf hash keq ord u = Ret b /\
    (b = true <-> links_inside (u_off u) /\ lists_separate (u_off u) (Z.to_nat (u_bc u)) /\
       (forall p v, holds_at u p v -> u_find kf hash keq u (kf v) = Ret (Z.of_nat p)) /\
       u_count u = bcount (u_occ u) /\ bcount (u_locks u) = 0 /\ v_valid (u_excess u) = true).
Proof. intros K V kf hash keq ord Ho u Hu Hc Hv. exact (valid_decides kf hash keq ord Ho u Hu Hc Hv). Qed.
Print Assumptions C90_valid_decides_partial.

(** three damaged containers, on which find() of a key that is not stored would run in a circle, leave the arrays, or miss a value *)
Definition damaged (off : list Z) (occ : list bool) (values : list (option Z)) (count : Z) : utab Z := {| u_bc := 2; u_values := values; u_off := off; u_occ := occ;
  u_locks := replicate 4 false; u_count := count;
  u_excess := {| v_n := 2; v_data := [Some 2; Some 3]; v_occ := [true; true]; v_locks := replicate 2 false; v_ev := [] |}; u_indices := replicate 4 0; u_ev := [] |}.
Definition circle : utab Z := damaged [2; 0; 1; -1] [true; false; false; false] [Some 1; None; None; None] 1.
Definition outside : utab Z := damaged [0; 3; 0; 0] [true; false; false; false] [Some 1; None; None; None] 1.
Definition lost : utab Z := damaged [0; 0; 0; 0] [true; false; true; false] [Some 1; None; Some 2; None] 2.
Example C90_ex : u_valid (fun v => v) (fun _ => 0) Z.eqb (fun n => seq 0 n) circle = Ret false /\ u_find (fun v => v) (fun _ => 0) Z.eqb circle 9 = Hang /\
  u_valid (fun v => v) (fun _ => 0) Z.eqb (fun n => seq 0 n) outside = Ret false /\ u_find (fun v => v) (fun _ => 1) Z.eqb outside 9 = UB /\
  u_valid (fun v => v) (fun _ => 0) Z.eqb (fun n => seq 0 n) lost = Ret false /\ u_find (fun v => v) (fun _ => 0) Z.eqb lost 2 = Ret (total_count lost) /\
  (arrays_ok circle /\ arrays_ok outside /\ arrays_ok lost) /\ any_order (fun n => seq 0 n) /\
  (forall p, u_occ circle !! p = Some true -> exists v, u_value circle (Z.of_nat p) = Ret v).
Proof.
  do 6 (split; [vm_compute; reflexivity|]). split; [split; [|split]; unfold arrays_ok; vm_compute; repeat split; discriminate|]. split; [intros n; reflexivity|].
  intros p. do 4 (destruct p as [|p]; [vm_compute; try discriminate; eauto|]). discriminate.
Qed.

(** what is missing: with a counter out of range valid() does not return false, it violates the postcondition of size() *)
Theorem C90_count_refuted : exists u : utab Z, arrays_ok u /\ (forall p, u_occ u !! p = Some true -> exists v, u_value u (Z.of_nat p) = Ret v) /\
  u_valid (fun v => v) (fun _ => 0) Z.eqb (fun n => seq 0 n) u = UB.
Proof.
  exists (damaged [0; 0; 0; 0] [true; false; false; false] [Some 1; None; None; None] (-1)). split; [unfold arrays_ok; vm_compute; repeat split; discriminate|]. split; [|vm_compute; reflexivity].
  intros p. do 4 (destruct p as [|p]; [vm_compute; try discriminate; eauto|]). discriminate.
Qed.
Print Assumptions C90_count_refuted.
