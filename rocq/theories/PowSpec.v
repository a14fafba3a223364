(** Independent vocabulary for C39. *)
From Coq Require Import QArith.
From Verif Require Import Base Algebra Dft BlockModel BlockSpec DiagModel DiagSpec PowModel.
Local Open Scope nat_scope.

(** The n-fold product of [f] in a monoid, and the power to an integer, [g] being the inverse *)
Fixpoint times {M : Type} (mul : M -> M -> M) (e : M) (k : nat) (f : M) : M := match k with O => e | S k => mul f (times mul e k f) end.
Definition zpower {M : Type} (mul : M -> M -> M) (e f g : M) (z : Z) : M := if (0 <=? z)%Z then times mul e (Z.to_nat z) f else times mul e (Z.to_nat (- z)) g.
(** what [linear_pow] returns stands for *)
Definition meaning {M : Type} (mul : M -> M -> M) (e f g : M) (p : power) : M :=
  match p with One => e | Self => f | Inverse => g | Copies k => fold_right mul e (repeat f k) | InverseCopies k => fold_right mul e (repeat g k) end.

(** the same power of a number *)
Definition number_power {K : cring} (inv : K -> K) (c : K) (z : Z) : K := zpower rmul r1 c (inv c) z.
Section Diagonal.
Context {K : dring}.
Fixpoint repeated {A} (f : A -> result A) (k : nat) (x : A) : result A := match k with O => Ok x | S k => y <- repeated f k x ;; f y end.
(** a power of the diagonal operator [op] applied to [x]; [div] is the division *)
Definition apply_power (div : K -> K -> K) (op : diag K) (p : diag_power K) (x : array K) : result (array K) :=
  match p with
  | New op' => apply op' x
  | Generic One => apply (identity_op (d_shape op)) x
  | Generic Self => apply op x
  | Generic Inverse => apply_inverse div op x
  | Generic (Copies k) => repeated (apply op) k x
  | Generic (InverseCopies k) => repeated (apply_inverse div op) k x
  end.
End Diagonal.
(** Square matrices of n rows *)
Section Matrices.
Context {K : cring}.
Definition mmul (n : nat) (a b : nat -> nat -> K) (i j : nat) : K := sum n (fun l => rmul (a i l) (b l j)).
Definition mone (i j : nat) : K := if Nat.eqb i j then r1 else r0.
Definition meq (n : nat) (a b : nat -> nat -> K) : Prop := forall i j, i < n -> j < n -> a i j = b i j.
(** The k columns of v are orthonormal. *)
Definition orthonormal (n k : nat) (v : nat -> nat -> K) : Prop := forall a b, a < k -> b < k -> sum n (fun i => rmul (v i a) (v i b)) = if Nat.eqb a b then r1 else r0.
End Matrices.
(** A set of exponents and a set of values for which the usual laws hold *)
Definition power_laws {X : Type} (mul : X -> X -> X) (one : X) (recip sqrt square : X -> X) (pw : Q -> X -> X) (E : Q -> Prop) (V : X -> Prop) : Prop :=
  (forall a x, E a -> V x -> V (pw a x)) /\
  (forall a b x, E a -> E b -> V x -> pw a (pw b x) = pw (a * b)%Q x) /\
  (forall a b x, E a -> E b -> V x -> mul (pw a x) (pw b x) = pw (a + b)%Q x) /\
  (forall x, V x -> pw 0%Q x = one) /\ (forall x, V x -> pw 1%Q x = x) /\
  (E (-1)%Q -> forall x, V x -> recip x = pw (-1)%Q x) /\ (E (1#2)%Q -> forall x, V x -> sqrt x = pw (1#2)%Q x) /\ (E 2%Q -> forall x, V x -> square x = pw 2%Q x) /\
  (forall a b, E a -> E b -> E (a * b)%Q /\ E (a + b)%Q) /\ (forall a b, (a == b)%Q -> E a -> E b) /\ (forall a b x, (a == b)%Q -> pw a x = pw b x).
(** The exponent is not merely close to -1, 1/2, 1 or 2. *)
Definition plain (q : Q) : Prop := forall c, In c [(-1)%Q; (1#2)%Q; 1%Q; 2%Q] -> allclose q c = true -> (q == c)%Q.
