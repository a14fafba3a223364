(** When a stop condition is met *)
From Verif Require Import Base StopModel.

Section Spec.
Context {V E M : Type} (leb : E -> E -> bool) (error : nat -> list (list V) -> E).
(** [met c n v m]: after n iterations, with the values v, the condition c or one of its operands, with the message m, is met. *)
Inductive met (n : nat) (v : list (list V)) : condition V E M -> M -> Prop :=
  | met_condition c m : c n v = true -> met n v (Condition c m) m
  | met_error e m : leb (error n v) e = true -> met n v (MaxError e m) m
  | met_iteration k m : Z.of_nat n = k -> met n v (MaxIteration k m) m
  | met_or l c m : In c l -> met n v c m -> met n v (Or l) m.
End Spec.
