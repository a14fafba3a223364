(** What a rotation is. *)
From Verif Require Import Base Algebra RotModel.

Section Spec.
Context {K : cring}.
Local Open Scope cr_scope.
Notation mat := (nat -> nat -> K).
Definition number (a : ax3) : nat := (match a with X => 0 | Y => 1 | Z => 2 end)%nat.
Definition next (i : nat) : nat := (match i with 0 => 1 | 1 => 2 | _ => 0 end)%nat.
(** The active rotation about an axis: it fixes it, and turns the next axis towards the one after, by an angle of cosine c
    and sine s. *)
Definition elementary (a : ax3) (cs : K * K) : mat := fun i j =>
  let '(c, s) := cs in
  if Nat.eqb i (number a) || Nat.eqb j (number a) then if Nat.eqb i j then 1 else 0
  else if Nat.eqb i j then c else if Nat.eqb j (next i) then - s else s.
Definition mul (n : nat) (A B : mat) : mat := fun i j => sum n (fun k => A i k * B k j).
Definition unit_mat : mat := fun i j => if Nat.eqb i j then 1 else 0.
Definition transpose (A : mat) : mat := fun i j => A j i.
Definition mat_eq (n : nat) (A B : mat) : Prop := forall i j, (i < n)%nat -> (j < n)%nat -> A i j = B i j.
Definition orthogonal (n : nat) (A : mat) : Prop := mat_eq n (mul n (transpose A) A) unit_mat /\ mat_eq n (mul n A (transpose A)) unit_mat.
Definition det3 (A : mat) : K :=
  A 0%nat 0%nat * (A 1%nat 1%nat * A 2%nat 2%nat - A 1%nat 2%nat * A 2%nat 1%nat)
  - A 0%nat 1%nat * (A 1%nat 0%nat * A 2%nat 2%nat - A 1%nat 2%nat * A 2%nat 0%nat)
  + A 0%nat 2%nat * (A 1%nat 0%nat * A 2%nat 1%nat - A 1%nat 1%nat * A 2%nat 0%nat).
(** the product of the rotations, the first one on the left *)
Fixpoint rotations (l : list (ax3 * (K * K))) : mat := match l with [] => unit_mat | (a, cs) :: l => mul 3 (elementary a cs) (rotations l) end.
(** c^2 + s^2 = 1 *)
Definition on_circle (cs : K * K) : Prop := fst cs * fst cs + snd cs * snd cs = 1.
(** a matrix given by the list of its elements *)
Definition of_list (m : list K) : mat := fun i j => nth (3 * i + j)%nat m 0.
End Spec.

(** The strings of a convention: A, AB' or AB'C'' for rotations about moving axes, A, AB or ABC about fixed axes. *)
Definition intrinsic (l : list ax3) : list letter :=
  match l with [a] => [Axis a] | [a; b] => [Axis a; Axis b; Prime] | [a; b; c] => [Axis a; Axis b; Prime; Axis c; Prime; Prime] | _ => [] end.
Definition extrinsic (l : list ax3) : list letter := map Axis l.
(** One to three axes, two consecutive ones being different. *)
Definition convention (l : list ax3) : Prop :=
  match l with [a] => True | [a; b] => a <> b | [a; b; c] => a <> b /\ b <> c | _ => False end.
(** The same characters, but for the case *)
Definition same_letter (l l' : letter) : Prop := l = l' \/ exists a, (l = Lower a /\ l' = Axis a) \/ (l = Axis a /\ l' = Lower a).
