(** Gradients and minimisers *)
From Coq Require Import Reals.
From Verif Require Import Base Algebra DliModel.
Local Open Scope R_scope.

(** The point at the distance s of u in the direction p *)
Definition along (u p : vec) (s : R) : vec := fun j => u j + s * p j.
(** g is the gradient of f at u: the derivative of f in every direction p is the dot product of g and p *)
Definition is_gradient (n : nat) (f : vec -> R) (u g : vec) : Prop := forall p, derivable_pt_lim (fun s => f (along u p s)) 0 (dot n g p).
(** h p is the derivative of the vector-valued g in the direction p *)
Definition is_derivative (n : nat) (g : vec -> vec) (u : vec) (h : vec -> vec) : Prop := forall p q, derivable_pt_lim (fun s => dot n (g (along u p s)) q) 0 (dot n (h p) q).
(** The functions computed, without memory *)
Definition the_call (a : algo) (u : vec) : R := call_ a (projections a u).
Definition the_gradient (a : algo) (u : vec) : vec := gradient_ a (projections a u).
Definition the_hessian_p (a : algo) (u p : vec) : vec := hessian_ a (projections a u) p.
Definition symmetric (d : nat) (C : option mat) : Prop := forall N, C = Some N -> forall i j, (i < d)%nat -> (j < d)%nat -> N i j = N j i.
(** The same answers, below the sizes of the arrays *)
Definition same_answer (n : nat) (x y : answer) : Prop :=
  match x, y with Number x, Number y => x = y | Vector v, Vector w => forall j, (j < n)%nat -> v j = w j | _, _ => False end.
Definition uncached (a : algo) (q : query) : answer :=
  match q with Call u => Number (the_call a u) | Gradient u => Vector (the_gradient a u) | HessianP u p => Vector (the_hessian_p a u p) end.
(** The elements of a matrix product B A B^T, on the diagonal *)
Definition diagonal_of (n : nat) (B A : mat) (i : nat) : R := rsum n (fun j => rsum n (fun k => B i j * A j k * B i k)).
(** A = V diag(e) V^T *)
Definition eigendecomposition (n r : nat) (A : mat) (e : vec) (v : mat) : Prop := forall i j, (i < n)%nat -> (j < n)%nat -> A i j = rsum r (fun k => e k * (v i k * v j k)).
Definition inverse_of (n : nat) (A A' : mat) : Prop := forall i j, (i < n)%nat -> (j < n)%nat -> rsum n (fun k => A i k * A' k j) = if (i =? j)%nat then 1 else 0.
