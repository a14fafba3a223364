(** Independent vocabulary for the splitting properties. *)
From Verif Require Import Base.
Open Scope Z_scope.

(** The integers a, a+1, ..., b-1. *)
Definition interval (a b : Z) : list Z := map (fun i => a + Z.of_nat i) (seq 0 (Z.to_nat (b - a))).

(** [chain a b l]: the half-open intervals of l are consecutive, start at a and end at b. *)
Fixpoint chain (a b : Z) (l : list (Z * Z)) : Prop :=
  match l with
  | [] => a = b
  | (s, e) :: l' => s = a /\ s <= e /\ chain e b l'
  end.

(** Lengths differ by at most one, and are non increasing. *)
Definition balanced (l : list (Z * Z)) : Prop :=
  forall i j s e s' e', (i <= j)%nat -> nth_error l i = Some (s, e) -> nth_error l j = Some (s', e') ->
    e' - s' <= e - s <= e' - s' + 1.
