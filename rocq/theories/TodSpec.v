(** Independent vocabulary for C35. *)
From Verif Require Import Base Algebra BlockModel ShapeModel RedModel TodModel.

Section Spec.
Context {K : cring}.
(** The operator computes [F], on arrays of shapes [si] and [so] given by their elements in the C order: it fills the output and leaves the input alone, and if it can work in place
    the output may share the beginning of its memory with the input. *)
Definition computes (op : mop K) (si so : list nat) (F : list K -> list K) : Prop :=
  (forall v, length v = prod si -> length (F v) = prod so) /\
  (forall v o, length v = prod si -> length o = prod so -> p_apart op si so v o = (v, F v)) /\
  (p_inplace op = true -> forall u, length u = Nat.max (prod si) (prod so) ->
     length (p_alias op si so u) = length u /\ firstn (prod so) (p_alias op si so u) = F (firstn (prod si) u)).
(** the vector e_i *)
Definition unit_vector (n i : nat) : list K := map (fun k => if Nat.eqb k i then r1 else r0) (seq 0 n).
Definition vsum (x y : list K) : list K := map (fun p => radd (fst p) (snd p)) (combine x y).
Definition vscale (c : K) (x : list K) : list K := map (rmul c) x.
Definition is_linear (n : nat) (F : list K -> list K) : Prop :=
  (forall x y, length x = n -> length y = n -> F (vsum x y) = vsum (F x) (F y)) /\ (forall c x, length x = n -> F (vscale c x) = vscale c (F x)).
(** The conversion to the dtype of the matrix leaves the elements of the columns as they are. *)
Definition exact_for (op : mop K) (F : list K -> list K) n : Prop := forall i j, i < n -> p_cast op (nth j (F (unit_vector n i)) r0) = nth j (F (unit_vector n i)) r0.
End Spec.

(** The shapes given to todense, if any, are the right ones, and the missing ones follow from the operator. *)
Definition enough (op : oper) (a b : option shape) (si so : shape) : Prop :=
  (a = Some si \/ a = None /\ (kind_in op = Explicit \/ kind_in op = Implicit /\ b = Some so)) /\
  (b = Some so \/ b = None /\ (kind_out op = Explicit \/ kind_out op = Implicit /\ a = Some si)).
