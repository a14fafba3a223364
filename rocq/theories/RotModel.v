(** Rotation operators, /repo/src/pyoperators/linear.py 977-1292.  Numbers are elements of a commutative ring; the cosine and
    the sine of an angle are given by an oracle.  The matrices are those of DenseBlockDiagonalOperator (modelled
    elsewhere); the dtypes, the conversion from degrees and the broadcasting of the angles, done element by element, are
    left out. *)
From Verif Require Import Base Algebra.

Inductive ax3 := X | Y | Z.
(** The characters of a convention: an axis in lower or upper case, a prime, anything else. *)
Inductive letter := Lower (a : ax3) | Axis (a : ax3) | Prime | Other.
Definition upper (l : letter) : letter := match l with Lower a => Axis a | l => l end.
Definition is_axis (l : letter) : bool := match l with Axis _ => true | _ => false end.

Section Rot.
Context {K : cring}.
Local Open Scope cr_scope.

(** ** Rotation2dOperator, 998-1014: the array m[i, j, ...] of the matrices, then np.rollaxis(m, -1) for each dimension of
    the angles. *)
Definition rollaxis (m : list nat -> K) : list nat -> K := fun l => match l with [] => m [] | k :: l => m (l ++ [k]) end.
Definition rot2 (cs : list nat -> K * K) (l : list nat) : K :=
  match l with
  | i :: j :: angle => let '(c, s) := cs angle in match i, j with O, O => c | O, _ => - s | _, O => s | _, _ => c end
  | _ => 0
  end.
Definition rotation2d (cs : list nat -> K * K) (ndim : nat) : list nat -> K := Nat.iter ndim rollaxis (rot2 cs).

(** ** Rotation3dOperator *)
(** the matrices, 1122-1271: [a11; a12; a13; a21; ...] *)
Definition matrix3 (convention : list letter) (a1 a2 a3 : K * K) : result (list K) :=
  let '(c1, s1) := a1 in let '(c2, s2) := a2 in let '(c3, s3) := a3 in
  match convention with
  | [Axis X] => Ok [r1; r0; r0; r0; c1; - s1; r0; s1; c1]
  | [Axis Y] => Ok [c1; r0; s1; r0; r1; r0; - s1; r0; c1]
  | [Axis Z] => Ok [c1; - s1; r0; s1; c1; r0; r0; r0; r1]
  | [Axis X; Axis Z; Prime] => Ok [c2; - s2; r0; c1 * s2; c1 * c2; - s1; s1 * s2; c2 * s1; c1]
  | [Axis X; Axis Y; Prime] => Ok [c2; r0; s2; s1 * s2; c1; - c2 * s1; - c1 * s2; s1; c1 * c2]
  | [Axis Y; Axis X; Prime] => Ok [c1; s1 * s2; c2 * s1; r0; c2; - s2; - s1; c1 * s2; c1 * c2]
  | [Axis Y; Axis Z; Prime] => Ok [c1 * c2; - c1 * s2; s1; s2; c2; r0; - c2 * s1; s1 * s2; c1]
  | [Axis Z; Axis Y; Prime] => Ok [c1 * c2; - s1; c1 * s2; c2 * s1; c1; s1 * s2; - s2; r0; c2]
  | [Axis Z; Axis X; Prime] => Ok [c1; - c2 * s1; s1 * s2; s1; c1 * c2; - c1 * s2; r0; s2; c2]
  | [Axis X; Axis Z; Prime; Axis X; Prime; Prime] => Ok [c2; - c3 * s2; s2 * s3; c1 * s2; c1 * c2 * c3 - s1 * s3; - c3 * s1 - c1 * c2 * s3; s1 * s2; c1 * s3 + c2 * c3 * s1; c1 * c3 - c2 * s1 * s3]
  | [Axis X; Axis Z; Prime; Axis Y; Prime; Prime] => Ok [c2 * c3; - s2; c2 * s3; s1 * s3 + c1 * c3 * s2; c1 * c2; c1 * s2 * s3 - c3 * s1; c3 * s1 * s2 - c1 * s3; c2 * s1; c1 * c3 + s1 * s2 * s3]
  | [Axis X; Axis Y; Prime; Axis X; Prime; Prime] => Ok [c2; s2 * s3; c3 * s2; s1 * s2; c1 * c3 - c2 * s1 * s3; - c1 * s3 - c2 * c3 * s1; - c1 * s2; c3 * s1 + c1 * c2 * s3; c1 * c2 * c3 - s1 * s3]
  | [Axis X; Axis Y; Prime; Axis Z; Prime; Prime] => Ok [c2 * c3; - c2 * s3; s2; c1 * s3 + c3 * s1 * s2; c1 * c3 - s1 * s2 * s3; - c2 * s1; s1 * s3 - c1 * c3 * s2; c3 * s1 + c1 * s2 * s3; c1 * c2]
  | [Axis Y; Axis X; Prime; Axis Y; Prime; Prime] => Ok [c1 * c3 - c2 * s1 * s3; s1 * s2; c1 * s3 + c2 * c3 * s1; s2 * s3; c2; - c3 * s2; - c3 * s1 - c1 * c2 * s3; c1 * s2; c1 * c2 * c3 - s1 * s3]
  | [Axis Y; Axis X; Prime; Axis Z; Prime; Prime] => Ok [c1 * c3 + s1 * s2 * s3; c3 * s1 * s2 - c1 * s3; c2 * s1; c2 * s3; c2 * c3; - s2; c1 * s2 * s3 - c3 * s1; s1 * s3 + c1 * c3 * s2; c1 * c2]
  | [Axis Y; Axis Z; Prime; Axis Y; Prime; Prime] => Ok [c1 * c2 * c3 - s1 * s3; - c1 * s2; c3 * s1 + c1 * c2 * s3; c3 * s2; c2; s2 * s3; - c1 * s3 - c2 * c3 * s1; s1 * s2; c1 * c3 - c2 * s1 * s3]
  | [Axis Y; Axis Z; Prime; Axis X; Prime; Prime] => Ok [c1 * c2; s1 * s3 - c1 * c3 * s2; c3 * s1 + c1 * s2 * s3; s2; c2 * c3; - c2 * s3; - c2 * s1; c1 * s3 + c3 * s1 * s2; c1 * c3 - s1 * s2 * s3]
  | [Axis Z; Axis Y; Prime; Axis Z; Prime; Prime] => Ok [c1 * c2 * c3 - s1 * s3; - c3 * s1 - c1 * c2 * s3; c1 * s2; c1 * s3 + c2 * c3 * s1; c1 * c3 - c2 * s1 * s3; s1 * s2; - c3 * s2; s2 * s3; c2]
  | [Axis Z; Axis Y; Prime; Axis X; Prime; Prime] => Ok [c1 * c2; c1 * s2 * s3 - c3 * s1; s1 * s3 + c1 * c3 * s2; c2 * s1; c1 * c3 + s1 * s2 * s3; c3 * s1 * s2 - c1 * s3; - s2; c2 * s3; c2 * c3]
  | [Axis Z; Axis X; Prime; Axis Z; Prime; Prime] => Ok [c1 * c3 - c2 * s1 * s3; - c1 * s3 - c2 * c3 * s1; s1 * s2; c3 * s1 + c1 * c2 * s3; c1 * c2 * c3 - s1 * s3; - c1 * s2; s2 * s3; c3 * s2; c2]
  | [Axis Z; Axis X; Prime; Axis Y; Prime; Prime] => Ok [c1 * c3 - s1 * s2 * s3; - c2 * s1; c1 * s3 + c3 * s1 * s2; c3 * s1 + c1 * s2 * s3; c1 * c2; s1 * s3 - c1 * c3 * s2; - c2 * s3; s2; c2 * c3]
  | _ => Raise ValueError
  end.
(** __init__, 1084-1120: the checks and the conversion from extrinsic to intrinsic rotations *)
Definition make3 {A} (cs : A -> K * K) (convention : list letter) (a1 a2 a3 : A) : result (list K) :=
  let convention := map upper convention in
  if existsb (fun l => match l with Axis _ | Prime => false | _ => true end) convention then Raise ValueError
  else
    let naxes := length (filter is_axis convention) in
    let '(convention, a1, a2, a3) :=
      match naxes, convention with
      | 2, [l1; l2] => ([l2; l1; Prime], a2, a1, a3)
      | 3, [l1; l2; l3] => ([l3; l2; Prime; l1; Prime; Prime], a3, a2, a1)
      | _, _ => (convention, a1, a2, a3)
      end in
    matrix3 convention (cs a1) (cs a2) (cs a3).
End Rot.
