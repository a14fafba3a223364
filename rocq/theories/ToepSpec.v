(** What a Toeplitz product is. *)
From Verif Require Import Base Algebra.

Section Spec.
Context {K : cring}.
(** The symmetric band Toeplitz matrix of first row f. *)
Definition toeplitz (f : list K) (i j : nat) : K := nth (Nat.max i j - Nat.min i j) f r0.
(** out is the product by the n x n matrix A of x *)
Definition product (n : nat) (A : nat -> nat -> K) (x out : list K) : Prop :=
  length out = n /\ forall i, i < n -> nth i out r0 = sum n (fun j => rmul (A i j) (nth j x r0)).
(** The first row that applies to the i-th row of the input: its own, or the only one. *)
Definition row_of (rows : list (list K)) (i : nat) : list K := match rows with [f] => f | _ => nth i rows [] end.
End Spec.
