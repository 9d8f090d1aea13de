(** Common imports, the outcome type and a few list facts used by all models. *)
From Coq Require Export ZArith Lia Bool List.
From Coq Require Export ZifyBool ZifyNat ZifyN.
From stdpp Require Export base numbers list list_numbers sorting gmultiset fin_maps relations.

Open Scope Z_scope.

(** Result of running a piece of modelled code.
    [Ret a]  : normal return.
    [UB]     : a contract (STDGPU_EXPECTS) is violated or the C++ code has undefined behaviour.
    [Hang]   : the fuel of a loop that has no a-priori bound is exhausted. *)
Inductive outcome (A : Type) : Type :=
| Ret (a : A)
| UB
| Hang.
Arguments Ret {A} a.
Arguments UB {A}.
Arguments Hang {A}.

Definition obind {A B} (m : outcome A) (f : A -> outcome B) : outcome B :=
  match m with Ret a => f a | UB => UB | Hang => Hang end.
Notation "'let!' x ':=' m 'in' k" := (obind m (fun x => k))
  (at level 200, x pattern, m at level 100, k at level 200, right associativity).
Notation "'require' b 'in' k" := (if b then k else UB)
  (at level 200, b at level 100, k at level 200, right associativity).

Lemma list_filter_ext_in {A} (P Q : A -> Prop) `{!forall x, Decision (P x), !forall x, Decision (Q x)} (l : list A) :
  (forall x, x ∈ l -> P x <-> Q x) -> filter P l = filter Q l.
Proof.
  induction l as [|a l IH]; intros HPQ; [reflexivity|].
  rewrite !filter_cons. rewrite IH by (intros x Hx; apply HPQ; right; exact Hx).
  assert (Ha : P a <-> Q a) by (apply HPQ; left).
  destruct (decide (P a)), (decide (Q a)); try tauto; reflexivity.
Qed.
