(** Element-wise operators, out of the loops. *)
From Coq Require Import QArith Qabs String.
From Verif Require Import Base Algebra.
Close Scope Q_scope. Close Scope string_scope.

(** ** Memory: the array of n cells starting at p with a step of s *)
Definition cell (p s : Z) (i : nat) : Z := (p + Z.of_nat i * s)%Z.
(** Nothing is read after it has been written by a previous iteration: [wr] and [rd] tell which cells the iterations write and
    read.  It is the case when the arrays do not overlap, and when the output is the input. *)
Definition no_overwrite (n : nat) (wr rd : nat -> list Z) : Prop := forall i j, (j < i < n)%nat -> forall p, In p (wr j) -> ~ In p (rd i).
Definition one (p s : Z) (i : nat) : list Z := [cell p s i].
Definition two (p s : Z) (i : nat) : list Z := [cell p s i; (cell p s i + 1)%Z].
(** Only these cells are changed. *)
Definition unchanged {V} (n : nat) (wr : nat -> list Z) (m m' : Z -> V) : Prop := forall p, (forall i, (i < n)%nat -> ~ In p (wr i)) -> m' p = m p.

(** ** Rounding *)
Local Open Scope Q_scope.
Definition is_integer (y : Q) : Prop := exists z, y == inject_Z z.
Definition is_even (y : Q) : Prop := exists z, y == inject_Z (2 * z).
Definition rounds (method : string) (x y : Q) : Prop :=
  is_integer y /\
  (if String.eqb method "rtz" then Qabs y <= Qabs x /\ 0 <= x * y /\ Qabs (x - y) < 1
   else if String.eqb method "rtmi" then y <= x < y + 1
   else if String.eqb method "rtpi" then y - 1 < x <= y
   else if String.eqb method "rhtmi" then y - (1 # 2) < x <= y + (1 # 2)
   else if String.eqb method "rhtpi" then y - (1 # 2) <= x < y + (1 # 2)
   else if String.eqb method "rhte" then Qabs (x - y) <= 1 # 2 /\ (Qabs (x - y) == 1 # 2 -> is_even y)
   else False).
