(** What the minima and maxima of arrays with NaN are. *)
From Verif Require Import Base BlockModel BlockSpec.

(** [v] is the greatest element for the order [le] among those that satisfy [P].  NaN (None) is the result if there is one among them, or,
    if they are skipped, if there is nothing else. *)
Definition greatest {A : Type} (le : A -> A -> Prop) (skipna : bool) (P : option A -> Prop) (v : option A) : Prop :=
  match v with
  | Some m => P (Some m) /\ (forall k, P (Some k) -> le k m) /\ (skipna = false -> ~ P None)
  | None => if skipna then P None /\ forall k, ~ P (Some k) else P None
  end.
(** The elements of an array along the dimension a, at the other indices idx; the elements of an array *)
Definition along {A : Type} (x : array A) (a : nat) (idx : list nat) (v : A) : Prop :=
  exists i, i < nth a (ashape x) 0 /\ v = aval x (insert a i idx).
Definition element {A : Type} (x : array A) (v : A) : Prop := exists idx, inside (ashape x) idx /\ v = aval x idx.
(** The product of the numbers, in their order, those that are NaN being left out *)
Definition product_without_nan {A : Type} (mul : A -> A -> A) (one : A) (l : list (option A)) : A :=
  fold_left (fun p v => match v with Some a => mul p a | None => p end) l one.
Record total_order {A : Type} (leb : A -> A -> bool) : Prop := {
  order_total : forall a b, leb a b = true \/ leb b a = true;
  order_trans : forall a b c, leb a b = true -> leb b c = true -> leb a c = true }.
