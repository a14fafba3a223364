(** Independent vocabulary for C41. *)
From Verif Require Import Base Algebra Ofield CgSpec LanModel.

Section Spec.
Context {K : ofield} (n : nat).
Local Open Scope cr_scope.
Notation vec := (nat -> K).
Definition symmetric (n : nat) (A : nat -> nat -> K) : Prop := forall i j, (i < n)%nat -> (j < n)%nat -> A i j = A j i.
(** the square root of a sum of n squares *)
Definition has_roots (sqrt : K -> K) : Prop := forall x, sqrt (inner n x x) * sqrt (inner n x x) = inner n x x.
(** [eig] gives the eigendecomposition of the k x k matrix T, with orthonormal eigenvectors. *)
Definition decomposes (eig : nat -> (nat -> nat -> K) -> (nat -> K) * (nat -> nat -> K)) (k : nat) (T : nat -> nat -> K) : Prop := let '(w, z) := eig k T in
  (forall i j, (i < k)%nat -> (j < k)%nat -> sum k (fun l => z i l * w l * z j l) = T i j) /\
  (forall l m, (l < k)%nat -> (m < k)%nat -> sum k (fun i => z i l * z i m) = if Nat.eqb l m then 1 else 0).
(** the symmetric tridiagonal matrix with the arrays alpha and beta of a state *)
Definition matrix_T (s : state K) : nat -> nat -> K := tridiagonal (fun j => number (l_alpha s j)) (fun j => number (l_beta s j)).
(** A^m x *)
Fixpoint iterate (A : nat -> nat -> K) (m : nat) (x : vec) : vec := match m with O => x | S m => times n A (iterate A m x) end.
(** None of the first rows of the array vectors is made of NaNs. *)
Definition defined (s : state K) (k : nat) : Prop := forall j, (j < k)%nat -> l_vectors s j <> None.
Definition orthonormal (k : nat) (v : nat -> vec) : Prop := forall i j, (i < k)%nat -> (j < k)%nat -> inner n (v i) (v j) = if Nat.eqb i j then 1 else 0.
End Spec.
