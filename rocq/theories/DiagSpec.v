(** Independent vocabulary for C20 and C21. *)
From Verif Require Import Base Algebra SeqModel BlockModel BlockSpec DiagModel DiagRulesModel.

(** Dimensions [d] of the data facing dimensions [s] of the array, from the first one on: equal, or stretched from 1. *)
Fixpoint stretches (d s : list nat) : Prop :=
  match d, s with
  | [], _ => True
  | n :: d', m :: s' => (n = 1 \/ n = m) /\ stretches d' s'
  | _ :: _, [] => False
  end.
(** Data of shape [d] can be used with arrays of shape [s]: rightward, its first dimension faces the first one of the
    array; otherwise, its last dimension faces the last one. *)
Definition fits (b : bcast) (d s : list nat) : Prop :=
  match b with
  | Disabled => d = s
  | Rightward => stretches d s
  | Leftward | Scalar => stretches (rev d) (rev s)
  end.
(** The index in the data of the coefficient used for the index [idx] of the array. *)
Fixpoint project (d idx : list nat) : list nat :=
  match d, idx with n :: d', i :: idx' => (if Nat.eqb n 1 then 0 else i) :: project d' idx' | _, _ => [] end.
Definition facing (b : bcast) (d idx : list nat) : list nat :=
  match b with Rightward => project d idx | _ => rev (project (rev d) (rev idx)) end.
Definition coefficient {A} (b : bcast) (d : array A) (idx : list nat) : A := aval d (facing b (ashape d) idx).

(** [y] is obtained from [x] element by element. *)
Definition elementwise {A B} (f : list nat -> A -> B) (x : array A) (y : array B) : Prop :=
  ashape y = ashape x /\ forall idx, inside (ashape x) idx -> aval y idx = f idx (aval x idx).

(** A C-contiguous array: element strides from the sizes of the following dimensions. *)
Fixpoint c_strides (size : Z) (shape : list nat) : list Z :=
  match shape with [] => [] | _ :: s => (size * Z.of_nat (fold_right Nat.mul 1%nat s))%Z :: c_strides size s end.

(** [z] combines [x] and [y] element by element. *)
Definition combines {A B C} (f : A -> B -> C) (x : array A) (y : array B) (z : array C) : Prop :=
  ashape y = ashape x /\ ashape z = ashape x /\ forall idx, inside (ashape x) idx -> aval z idx = f (aval x idx) (aval y idx).

(** Data broadcast as a scalar has no dimension. *)
Definition proper (b : bcast) (d : list nat) : Prop := b = Scalar -> d = [].
(** The diagonal operators that a user can make. *)
Inductive made {K : dring} : diag K -> Prop :=
| made_zero s : made (zero_op s)
| made_identity s : made (identity_op s)
| made_homothety c s : made (homothety c s)
| made_mask m b s : proper b (ashape m) -> made (mask m b s)
| made_diagonal d b : proper b (ashape d) -> made (diagonal d b).
(** The constant operators that a user can make. *)
Inductive kmade {K : dring} : constop K -> Prop :=
| kmade_zero s : kmade (C CZero s)
| kmade_scalar c s : kmade (constant_scalar c s)
| kmade_data d b k : proper b (ashape d) -> constant d b = Ok k -> kmade k.

(** How many times [c] occurs. *)
Definition occurrences {K : dring} (c : K) (v : list K) : nat := length (filter (fun x => deq x c) v).
