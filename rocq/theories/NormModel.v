(** NormalizeOperator: the vectors along the last dimension of an array divided by their norms (nonlinear.py 618-636). *)
From Coq Require Import List Arith.
Import ListNotations.

Section Model.
(** The numbers and the ufuncs np.add, x**2, np.sqrt and np.divide on two numbers.  Rounding, overflows, infinities and NaN are left out. *)
Context {V : Type} (zero : V) (add : V -> V -> V) (power2 sqrt : V -> V) (divide : V -> V -> V).

(** The memory: one number per address.  The arrays are C-contiguous, of rows * n elements; strides are left out. *)
Definition mem := nat -> V.
Definition put (m : mem) (a : nat) (v : V) : mem := fun b => if b =? a then v else m b.

(** np.sum over the last axis, of n elements; the order in which numpy adds is simplified to the order of the elements. *)
Definition np_sum (n : nat) (f : nat -> V) : V := fold_left (fun s j => add s (f j)) (seq 0 n) zero.

(** NormalizeOperator.direct (nonlinear.py 635-636): input**2, np.sum(..., axis=-1) and np.sqrt make new arrays; the loop of np.divide then
    reads the element i of the input, divides it by the norm of its row ([..., None] repeats the norm along the last axis) and writes it into the
    output, which may be the input (@inplace, line 619).  [input] and [output] are the addresses of the first elements. *)
Definition direct (rows n input output : nat) (m : mem) : mem :=
  let squares i := power2 (m (input + i)) in
  let sums r := np_sum n (fun j => squares (r * n + j)) in
  let norms r := sqrt (sums r) in
  fold_left (fun w i => put w (output + i) (divide (w (input + i)) (norms (i / n)))) (seq 0 (rows * n)) m.
End Model.
Arguments mem V : clear implicits.
