(** Symmetric positive definite systems. *)
From Verif Require Import Base Algebra Ofield.

Section Spec.
Context {K : ofield} (n : nat).
Local Open Scope cr_scope.
Notation vec := (nat -> K).
Notation mat := (nat -> nat -> K).
(** x . y and A x *)
Definition inner (x y : vec) : K := sum n (fun i => x i * y i).
Definition times (A : mat) (x : vec) : vec := fun i => sum n (fun j => A i j * x j).
Definition null (x : vec) : Prop := forall i, (i < n)%nat -> x i = 0.
Definition spd (A : mat) : Prop :=
  (forall i j, (i < n)%nat -> (j < n)%nat -> A i j = A j i) /\ (forall x, ~ null x -> lt 0 (inner x (times A x))).
(** b - A x *)
Definition residual (A : mat) (b x : vec) : vec := fun i => b i - times A x i.
(** x . A x - 2 b . x, whose minimum is the solution of A x = b *)
Definition energy (A : mat) (b x : vec) : K := inner x (times A x) - (1 + 1) * inner b x.
(** the combination of the k first vectors *)
Definition combination (k : nat) (c : nat -> K) (v : nat -> vec) : vec := fun i => sum k (fun j => c j * v j i).
End Spec.
