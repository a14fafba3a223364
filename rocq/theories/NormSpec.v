(** What normalising is: see C67. *)
From Verif Require Import Base Algebra Ofield.

Section Spec.
Context {K : ofield}.
Local Open Scope cr_scope.
(** a vector of n numbers: x 0, ..., x (n - 1) *)
Definition squared_norm (n : nat) (x : nat -> K) : K := sum n (fun j => x j * x j).
Definition unit_vector (n : nat) (x : nat -> K) : Prop := squared_norm n x = 1.
(** y points the way x does *)
Definition same_direction (n : nat) (x y : nat -> K) : Prop := exists c : K, lt 0 c /\ forall j, (j < n)%nat -> y j = c * x j.
Definition nonzero (n : nat) (x : nat -> K) : Prop := exists j, (j < n)%nat /\ x j <> 0.
(** rt gives the square root of a *)
Definition root_at (rt : K -> K) (a : K) : Prop := le 0 (rt a) /\ rt a * rt a = a.
End Spec.
(** the row r of an array of rows of n numbers stored from an address on *)
Definition row {V} (n at_ : nat) (m : nat -> V) (r : nat) : nat -> V := fun j => m (at_ + (r * n + j))%nat.
(** two arrays of size numbers are the same or have no address in common *)
Definition same_or_apart (size a b : nat) : Prop := a = b \/ (a + size <= b)%nat \/ (b + size <= a)%nat.
