(** What an eigendecomposition is: see C71. *)
From Verif Require Import Base Algebra Ofield.

Section Spec.
Context {K : ofield}.
Local Open Scope cr_scope.
Definition dot (n : nat) (x y : nat -> K) : K := sum n (fun i => x i * y i).
(** the k columns of v are orthonormal *)
Definition orthonormal (n k : nat) (v : nat -> nat -> K) : Prop :=
  forall a b, (a < k)%nat -> (b < k)%nat -> dot n (fun i => v i a) (fun i => v i b) = if Nat.eqb a b then 1 else 0.
(** every vector is a combination of the columns *)
Definition complete (n k : nat) (v : nat -> nat -> K) : Prop :=
  forall x, exists c, forall i, (i < n)%nat -> x i = sum k (fun l => v i l * c l).
(** the trace of a linear map: the sum of the coefficients of the images of the basis vectors on themselves *)
Definition basis (j : nat) : nat -> K := fun i => if Nat.eqb i j then 1 else 0.
Definition trace_of (n : nat) (f : (nat -> K) -> nat -> K) : K := sum n (fun j => f (basis j) j).
Definition singular (n : nat) (f : (nat -> K) -> nat -> K) : Prop :=
  exists x, (exists i, (i < n)%nat /\ x i <> 0) /\ forall i, (i < n)%nat -> f x i = 0.
Definition abs (a : K) : K := if ltb a 0 then - a else a.
(** c is the ratio of the largest to the smallest absolute value of the numbers that are not zero *)
Definition condition_number (k : nat) (w : nat -> K) (c : K) : Prop :=
  exists a b, (a < k)%nat /\ (b < k)%nat /\ w a <> 0 /\ w b <> 0 /\ (forall l, (l < k)%nat -> w l <> 0 -> le (abs (w l)) (abs (w a)) /\ le (abs (w b)) (abs (w l))) /\ c * abs (w b) = abs (w a).
End Spec.
