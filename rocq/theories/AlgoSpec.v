From Verif Require Import Base.

Section order.
  Context {T : Type} (lt : T -> T -> bool).
  (** strict weak order: what the C++ requirement LessThanComparable means *)
  Definition strict_weak : Prop :=
    (forall a, lt a a = false) /\
    (forall a b c, lt a b = true -> lt b c = true -> lt a c = true) /\
    (forall a b c, lt a b = false -> lt b c = false -> lt a c = false).
End order.
