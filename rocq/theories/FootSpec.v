(** What the footprint should be: see C72. *)
From Coq Require Import List Arith.
From Verif Require Import Base FootModel.
Import ListNotations.

(** The arrays of an operator, with repetitions *)
Fixpoint arrays (o : operator) : list array :=
  match o with Op _ (Arrays l) => l | Op _ (Power _) => [] | Op _ (Composite l) => (fix go l := match l with [] => [] | o :: l => arrays o ++ go l end) l end.
(** The operators inside an operator, itself included *)
Fixpoint inside (o : operator) : list operator :=
  o :: match o with Op _ (Composite l) => (fix go l := match l with [] => [] | o :: l => inside o ++ go l end) l | _ => [] end.
(** Names are those of objects: the same name, the same operator *)
Definition coherent (o : operator) : Prop := forall p p', In p (inside o) -> In p' (inside o) -> id_of p = id_of p' -> p = p'.
Definition has_power (o : operator) : Prop := exists p n, In p (inside o) /\ p = Op (id_of p) (Power n).
Definition has_plain_power (o : operator) : Prop := exists p, In p (inside o) /\ p = Op (id_of p) (Power PythonNumber).
(** The memory that is really held: each array once *)
Definition held (size : array -> nat) (o : operator) : nat := fold_right plus 0 (map size (nodup Nat.eq_dec (arrays o))).
Fixpoint depth (o : operator) : nat :=
  S match o with Op _ (Composite l) => (fix go l := match l with [] => 0 | o :: l => Nat.max (depth o) (go l) end) l | _ => 0 end.
(** No array is shared, but through an operand that is repeated in the same composite *)
Inductive tidy : operator -> Prop :=
| Tidy_arrays i l : NoDup l -> tidy (Op i (Arrays l))
| Tidy_composite i l : (forall o, In o l -> tidy o) -> (forall o p a, In o l -> In p l -> o <> p -> In a (arrays o) -> ~ In a (arrays p)) -> tidy (Op i (Composite l)).
