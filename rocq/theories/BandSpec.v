(** Independent vocabulary for C24. *)
From Verif Require Import Base Algebra DiagModel BandModel.
Local Open Scope nat_scope.

(** The product of a matrix of [n] columns by a vector. *)
Definition product {K : cring} (n : nat) (A : nat -> nat -> K) (x out : list K) : Prop :=
  length out = n /\ forall i, i < n -> nth i out r0 = sum n (fun j => rmul (A i j) (nth j x r0)).

(** An off-diagonal given by a scalar is constant. *)
Definition entry {K : cring} (v : list K) (i : nat) : K := match v with [a] => a | _ => nth i v r0 end.
Definition tri_matrix {K : dring} (t : tri K) (i j : nat) : K :=
  if Nat.eqb i j then nth i (t_diag t) r0
  else if Nat.eqb j (S i) then entry (t_sup t) i
  else if Nat.eqb i (S j) then entry (t_sub t) j
  else r0.
(** The sizes are right. *)
Definition tri_ok {K : dring} (t : tri K) : Prop :=
  let n := length (t_diag t) in
  (length (t_sub t) = 1 \/ S (length (t_sub t)) = n) /\ (length (t_sup t) = 1 \/ S (length (t_sup t)) = n).

(** LAPACK: a[i, j] is stored in ab[ku + i - j, j]. *)
Definition band_matrix {K : dring} (b : band K) (i j : nat) : K :=
  if Nat.leb j (i + b_ku b) && Nat.leb i (j + b_kl b) then nth j (nth (b_ku b + i - j) (b_ab b) []) r0 else r0.
Definition band_ok {K : dring} (b : band K) (n : nat) : Prop :=
  length (b_ab b) = b_kl b + b_ku b + 1 /\ Forall (fun r => length r = n) (b_ab b).
(** Symmetric: lower storage a[i, j] = ab[i - j, j] for j <= i; upper storage a[i, j] = ab[u + i - j, j] for i <= j. *)
Definition lower_matrix {K : dring} (ab : list (list K)) (i j : nat) : K :=
  nth (Nat.min i j) (nth (Nat.max i j - Nat.min i j) ab []) r0.
Definition upper_matrix {K : dring} (ab : list (list K)) (i j : nat) : K :=
  let lo := Nat.min i j in
  let hi := Nat.max i j in
  if Nat.leb (hi - lo) (length ab - 1) then nth hi (nth (length ab - 1 + lo - hi) ab []) r0 else r0.
