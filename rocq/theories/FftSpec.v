(** What circular convolutions, transposes and adjoints are. *)
From Verif Require Import Base Algebra Dft.

Section Spec.
Context {K : cfield}.
Notation array := (list nat -> K).
(** i is an index of an array of shape s *)
Definition index (s i : list nat) : Prop := Forall2 (fun n k => k < n) s i.
(** the sum over the indices of an array of shape s *)
Fixpoint total (s : list nat) (f : array) : K :=
  match s with [] => f [] | n :: s => sum n (fun k => total s (fun i => f (k :: i))) end.
(** (m + o - p) mod n and (m - o + p) mod n for each axis *)
Fixpoint before (s o m p : list nat) : list nat :=
  match s, o, m, p with n :: s, c :: o, i :: m, k :: p => ((i + c + (n - k)) mod n) :: before s o m p | _, _, _, _ => [] end.
Fixpoint after (s o m p : list nat) : list nat :=
  match s, o, m, p with n :: s, c :: o, i :: m, k :: p => ((i + (n - c) + k) mod n) :: after s o m p | _, _, _, _ => [] end.
(** The kernel of shape ks, whose element (ks - 1) / 2 is the centre, slides over x, which is periodic. *)
Definition centre (ks : list nat) : list nat := map (fun k => (k - 1) / 2) ks.
Definition convolution (s ks : list nat) (ker x : array) (m : list nat) : K :=
  total ks (fun p => rmul (ker p) (x (before s (centre ks) m p))).
Definition correlation (s ks : list nat) (ker x : array) (m : list nat) : K :=
  total ks (fun p => rmul (ker p) (x (after s (centre ks) m p))).
(** The convolution by an array of the same shape, whose centre is its first element. *)
Definition circular (s : list nat) (g x : array) (m : list nat) : K :=
  total s (fun p => rmul (g p) (x (before s (map (fun _ => 0) s) m p))).
(** equal arrays, real arrays *)
Definition same (s : list nat) (x y : array) : Prop := forall i, index s i -> x i = y i.
Definition real (s : list nat) (x : array) : Prop := forall i, index s i -> conj (x i) = x i.
(** the scalar product *)
Definition dot (s : list nat) (x y : array) : K := total s (fun i => rmul (conj (x i)) (y i)).
End Spec.

(** The real convolution operators a user can obtain: made from a kernel, transposed (the operator kept by the original, not
    a copy of it), multiplied by a real number, added, composed. *)
From Verif Require Import FftModel.
Section Reachable.
Context {K : cfield}.
Inductive reachable (w : nat -> K) (s : list nat) : rconv K -> Prop :=
| RMake ks junk ker op : real ks ker -> make_real w s ks junk ker = Ok op -> reachable w s op
| RT op : reachable w s op -> rc_transposed op = false -> reachable w s (rc_T op)
| RHomothety op a : reachable w s op -> conj a = a -> reachable w s (rc_homothety op a)
| RAdd op1 op2 : reachable w s op1 -> reachable w s op2 -> reachable w s (rc_add op1 op2)
| RCmp op1 op2 : reachable w s op1 -> reachable w s op2 -> reachable w s (rc_cmp s op1 op2).
(** FFTW's roots of unity *)
Definition roots (w : nat -> K) (s : list nat) : Prop := Forall (fun n => root n (w n)) s.
Definition fits (s ks : list nat) : Prop := Forall2 (fun n k => k <= n) s ks.
End Reachable.
