(** What the array functions promise about constructors and destructors. *)
From Verif Require Import Base LifeModel.

(** the objects that the arrays hold *)
Definition held (s : lives) : list nat := omap id (concat (l_arrays s)).
(** every object that was ever constructed is destroyed, once, or held by an array, at one place; no array holds raw memory *)
Definition balanced_lives (s : lives) : Prop := seq 0 (l_next s) ≡ₚ l_destroyed s ++ held s /\ (forall a, a ∈ l_arrays s -> None ∉ a).

(** calls without bitwise copies; device arrays only in device-compiled code *)
Definition creates_or_destroys (device_compiled : bool) (op : lop) : Prop :=
  match op with
  | LCreateDevice _ | LDestroyDevice _ => device_compiled = true
  | LCreateHost _ | LDestroyHost _ => True
  | LCopyCreate _ _ | LCopy _ _ _ => False
  end.
(** the number of arrays that the calls create *)
Definition creates (op : lop) : nat := match op with LCreateDevice _ | LCreateHost _ | LCopyCreate _ _ => 1 | _ => 0 end.
(** arrays are named after they were created *)
Fixpoint names_ok (created : nat) (ops : list lop) : Prop :=
  match ops with
  | [] => True
  | op :: ops => match op with LDestroyDevice k | LDestroyHost k | LCopyCreate k _ => (k < created)%nat | LCopy k _ j => (k < created)%nat /\ (j < created)%nat | _ => True end
                 /\ names_ok (created + creates op) ops
  end.
