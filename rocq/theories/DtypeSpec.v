(** Independent vocabulary for C46. *)
From Coq Require Import QArith.
From Verif Require Import Base DtypeModel.
Close Scope Q_scope. Local Open Scope nat_scope.

(** The numeric types of numpy, with any byte order *)
Definition numeric_types : list (kind * nat) :=
  [(Bool_, 1); (Int_, 1); (Int_, 2); (Int_, 4); (Int_, 8); (UInt_, 1); (UInt_, 2); (UInt_, 4); (UInt_, 8); (Float_, 2); (Float_, 4); (Float_, 8); (Float_, 16); (Complex_, 8); (Complex_, 16); (Complex_, 32)].
Definition numeric (t : dtype) : Prop := In (d_kind t, d_size t) numeric_types.
(** The same but for the byte order *)
Definition same_type (s t : dtype) : Prop := d_kind s = d_kind t /\ d_size s = d_size t.
(** Signed and unsigned integers are not mixed. *)
Definition unmixed (l : list dtype) : Prop := (forall t, In t l -> d_kind t <> UInt_) \/ (forall t, In t l -> d_kind t <> Int_).

(** The numbers (real and imaginary parts) of a type: integers in an interval, dyadic numbers with a mantissa and an exponent of given sizes (the long double is that of x86) *)
Definition float_format (size : nat) : Z * Z * Z :=
  match size with 2 => (11, -24, 5)%Z | 4 => (24, -149, 104)%Z | 8 => (53, -1074, 971)%Z | _ => (64, -16445, 16320)%Z end.
Definition is_integer (lo hi : Z) (q : Q) : Prop := exists n, (lo <= n < hi)%Z /\ (q == inject_Z n)%Q.
Definition is_float (size : nat) (q : Q) : Prop := let '(p, lo, hi) := float_format size in exists m e, (Z.abs m < 2 ^ p)%Z /\ (lo <= e <= hi)%Z /\ (q == inject_Z m * Qpower 2 e)%Q.
Definition represents (t : dtype) (z : Q * Q) : Prop :=
  let bits := (8 * Z.of_nat (d_size t))%Z in
  match d_kind t with
  | Bool_ => is_integer 0 2 (fst z) /\ (snd z == 0)%Q
  | Int_ => is_integer (- 2 ^ (bits - 1)) (2 ^ (bits - 1)) (fst z) /\ (snd z == 0)%Q
  | UInt_ => is_integer 0 (2 ^ bits) (fst z) /\ (snd z == 0)%Q
  | Float_ => is_float (d_size t) (fst z) /\ (snd z == 0)%Q
  | Complex_ => is_float (d_size t / 2) (fst z) /\ is_float (d_size t / 2) (snd z)
  | _ => True
  end.
(** Integers of 64 bits and floating-point numbers of 64 bits *)
Definition inexact (s t : dtype) : Prop := (d_kind s = Int_ \/ d_kind s = UInt_) /\ d_size s = 8 /\ (d_kind t = Float_ /\ d_size t = 8 \/ d_kind t = Complex_ /\ d_size t = 16).

Section Calls.
Context {V : Type} (astype : dtype -> V -> V).
Definition convert (s t : dtype) (v : V) : V := if dtype_eqb s t then v else astype t v.
(** Conversions compose, and an operator computes the same with a larger type. *)
Definition faithful : Prop := forall s t u v, can_cast s t = true -> can_cast t u = true -> convert t u (convert s t v) = convert s u v.
Definition compatible (o : oper V) : Prop := forall s t v, can_cast s t = true -> o_direct o t t (convert s t v) = convert s t (o_direct o s s v).
(** The operators called one after the other, the last of the list first *)
Fixpoint one_by_one (ops : list (oper V)) (x : array V) : result (array V) := match ops with [] => Ok x | o :: ops => rbind (one_by_one ops x) (fun y => call astype o y None) end.
End Calls.
