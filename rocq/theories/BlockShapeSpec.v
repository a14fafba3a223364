(** Independent vocabulary for C15 on block operators. *)
From Verif Require Import Base BlockModel BlockSpec.

(** The declared sizes [p] are right where they are known. *)
Definition sizes_ok (p : list (option nat)) (l : list nat) : Prop := Forall2 (fun o n => o = None \/ o = Some n) p l.
(** On this side of the block operator, arrays of the given shape are made of pieces of sizes [l] along [ax] (None: all
    the blocks share the array). *)
Definition side_ok (p : option (list (option nat))) (l : list nat) (ax : option axis) (shape : list nat) : Prop :=
  match ax with
  | Some ax => exists p' a, p = Some p' /\ sizes_ok p' l /\ partitioned ax l shape a
  | None => p = None
  end.
