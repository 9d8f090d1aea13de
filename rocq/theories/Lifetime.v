(** Object lifetime events recorded by the sequential container models, and what a correct trace is. *)
From Verif Require Import Base.

(** [InSlot p]: the object in _data[p]; [Result]: the local pair<T,bool> that a pop returns *)
Inductive place := InSlot (p : nat) | Result.
Global Instance place_eq_dec : EqDecision place.
Proof. solve_decision. Defined.

Inductive event :=
| EvConstruct (o : place) | EvRead (o : place) | EvDestroy (o : place)
| EvInitCopy.              (* popped(_data[0], false): reads the object in _data[0], constructs the result *)

Global Instance event_eq_dec : EqDecision event.
Proof. solve_decision. Defined.

(** ** Specification *)
(** only the individual accesses *)
Definition expand (e : event) : list event := match e with EvInitCopy => [EvRead (InSlot 0); EvConstruct Result] | _ => [e] end.

(** the events are legal when exactly the places with [live o = true] hold a living object before them:
    constructed only where nothing lives, read and destroyed only while alive *)
Fixpoint lifetime_ok (live : place -> bool) (evs : list event) : Prop :=
  match evs with
  | [] => True
  | EvConstruct o :: evs => live o = false /\ lifetime_ok (fun q => if decide (q = o) then true else live q) evs
  | EvRead o :: evs => live o = true /\ lifetime_ok live evs
  | EvDestroy o :: evs => live o = true /\ lifetime_ok (fun q => if decide (q = o) then false else live q) evs
  | EvInitCopy :: evs => False
  end.
(** the living objects after the events *)
Fixpoint live_after (live : place -> bool) (evs : list event) : place -> bool :=
  match evs with
  | [] => live
  | EvConstruct o :: evs => live_after (fun q => if decide (q = o) then true else live q) evs
  | EvDestroy o :: evs => live_after (fun q => if decide (q = o) then false else live q) evs
  | _ :: evs => live_after live evs
  end.
Definition nothing : place -> bool := fun _ => false.

(** all accesses *)
Definition all_events (evs : list event) : list event := evs ≫= expand.
(** the accesses to slots other than the initialisation of a pop's result *)
Definition is_slot_event (e : event) : bool :=
  match e with EvConstruct (InSlot _) | EvRead (InSlot _) | EvDestroy (InSlot _) => true | _ => false end.
Definition slot_events (evs : list event) : list event := filter (fun e => is_slot_event e = true) evs.

(** ** facts *)
Lemma lifetime_ok_ext l1 l2 evs : (forall o, l1 o = l2 o) -> lifetime_ok l1 evs -> lifetime_ok l2 evs.
Proof.
  revert l1 l2. induction evs as [|[o|o|o|] evs IH]; intros l1 l2 E H; cbn in *; auto.
  - destruct H as [H1 H2]. split; [rewrite <- E; exact H1|]. eapply IH; [|exact H2]. intros q. cbn. destruct (decide _); auto.
  - destruct H as [H1 H2]. split; [rewrite <- E; exact H1|]. eapply IH; [|exact H2]. auto.
  - destruct H as [H1 H2]. split; [rewrite <- E; exact H1|]. eapply IH; [|exact H2]. intros q. cbn. destruct (decide _); auto.
Qed.
Lemma live_after_ext l1 l2 evs o : (forall o, l1 o = l2 o) -> live_after l1 evs o = live_after l2 evs o.
Proof.
  revert l1 l2. induction evs as [|[q|q|q|] evs IH]; intros l1 l2 E; cbn; auto; apply IH; intros r; cbn; try destruct (decide _); auto.
Qed.
Lemma lifetime_ok_app l evs1 evs2 : lifetime_ok l (evs1 ++ evs2) <-> lifetime_ok l evs1 /\ lifetime_ok (live_after l evs1) evs2.
Proof.
  revert l. induction evs1 as [|[q|q|q|] evs IH]; intros l; cbn; rewrite ?IH; tauto.
Qed.
Lemma live_after_app l evs1 evs2 o : live_after l (evs1 ++ evs2) o = live_after (live_after l evs1) evs2 o.
Proof. revert l. induction evs1 as [|[q|q|q|] evs IH]; intros l; cbn; auto. Qed.
Lemma slot_events_app e1 e2 : slot_events (e1 ++ e2) = slot_events e1 ++ slot_events e2.
Proof. apply filter_app. Qed.

(** exactly once: a legal trace that ends with nothing alive destroys each place as often as it constructs it *)
Definition constructs (o : place) (evs : list event) : Z := Z.of_nat (length (filter (fun e => e = EvConstruct o) evs)).
Definition destroys (o : place) (evs : list event) : Z := Z.of_nat (length (filter (fun e => e = EvDestroy o) evs)).

Lemma construct_destroy_balance evs : forall live o, lifetime_ok live evs ->
  Z.b2z (live o) + constructs o evs = destroys o evs + Z.b2z (live_after live evs o).
Proof.
  unfold constructs, destroys. induction evs as [|[q|q|q|] evs IH]; intros live o H; cbn in H; [cbn; lia| | | |contradiction].
  - destruct H as [H1 H2]. rewrite !filter_cons. rewrite (decide_False (P := EvConstruct q = EvDestroy o)) by discriminate.
    specialize (IH _ o H2). cbn [live_after]. cbn beta in IH. destruct (decide (o = q)) as [->|Hne].
    + rewrite decide_True by reflexivity. rewrite H1. cbn [length]. cbn [Z.b2z] in IH. cbn [Z.b2z]. lia.
    + rewrite decide_False by congruence. lia.
  - destruct H as [H1 H2]. rewrite !filter_cons. rewrite !decide_False by discriminate. apply (IH _ o H2).
  - destruct H as [H1 H2]. rewrite !filter_cons. rewrite (decide_False (P := EvDestroy q = EvConstruct o)) by discriminate.
    specialize (IH _ o H2). cbn [live_after]. cbn beta in IH. destruct (decide (o = q)) as [->|Hne].
    + rewrite decide_True by reflexivity. rewrite H1. cbn [length]. cbn [Z.b2z] in IH. cbn [Z.b2z]. lia.
    + rewrite decide_False by congruence. lia.
Qed.
