(** What least_greater_multiple should return. *)
From Verif Require Import Base.
Local Open Scope Z_scope.

(** The product of the factors raised to the exponents *)
Inductive product_of_powers : list Z -> Z -> Prop :=
| pp_nil : product_of_powers [] 1
| pp_cons v factors k x : 0 <= k -> product_of_powers factors x -> product_of_powers (v :: factors) (v ^ k * x).

(** [r] is the least product of powers of the factors greater than or equal to a. *)
Definition least_multiple (factors : list Z) (a r : Z) : Prop :=
  product_of_powers factors r /\ a <= r /\ forall x, product_of_powers factors x -> a <= x -> r <= x.

(** The exponents given by the logarithms are large enough. *)
Definition rounds_up (power : Z -> Z -> nat) : Prop := forall v m, 2 <= v -> 1 <= m -> m <= v ^ Z.of_nat (power v m).

(** The product of the largest powers *)
Fixpoint largest (factors : list Z) (power : Z -> nat) : Z :=
  match factors with [] => 1 | v :: l => v ^ Z.of_nat (power v) * largest l power end.
