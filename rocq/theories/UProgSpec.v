(** What the statements about the completion of concurrent calls (C65) speak about. *)
From Verif Require Import Base Conc.

Section solo.
  Context {S L : Type} (step : nat -> S -> L -> option (S * L)).
  (** thread [i] runs alone: shared state and thread before, shared state and thread after *)
  Definition solo (i : nat) : S * L -> S * L -> Prop := rtc (fun c c' => step i c.1 c.2 = Some c').
End solo.
