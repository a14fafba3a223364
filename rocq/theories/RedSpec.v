(** Independent vocabulary for the reductions, the differences and the integrations. *)
From Verif Require Import Base Algebra Ofield BlockModel BlockSpec.

(** [s] and [t] are adjoint of each other for the pair of arrays [x], [y]: <s, y> = <x, t> *)
Definition adjoint_on {K : cring} (x y s t : array K) : Prop := ashape s = ashape y /\ ashape t = ashape x /\ inner s y = inner x t.

Section Spec.
Context {K : ofield}.
Definition monotonic (x : list K) : Prop :=
  (forall i, S i < length x -> le (nth i x r0) (nth (S i) x r0)) \/ (forall i, S i < length x -> le (nth (S i) x r0) (nth i x r0)).
(** The area under the segments between the points (x_i, f_i): the sum of (x_{i+1} - x_i) (f_i + f_{i+1}) / 2 *)
Definition trapezoids (x : list K) (f : nat -> K) : K :=
  sum (length x - 1) (fun i => div (rmul (rsub (nth (S i) x r0) (nth i x r0)) (radd (f i) (f (S i)))) (radd r1 r1)).
End Spec.
