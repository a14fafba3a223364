(** What the texts of operators should tell: see C69. *)
From Coq Require Import List Ascii String.
From Verif Require Import Base LabelModel.
Import ListNotations.
Local Open Scope string_scope.
Local Open Scope list_scope.

(** An initialised linear operator that shows its shapes; the shapes of a square operator are the same *)
Definition shows_shapes (o : operator) : Prop :=
  linear o = true /\ name o <> None /\ (shapein o <> None \/ shapeout o <> None) /\ (square o = true -> shapein o = shapeout o).
(** Different things have different texts. *)
Definition unambiguous {A} (f : A -> text) : Prop := forall a b, f a = f b -> a = b.
(** The small letter of a capital; other characters are unchanged *)
Fixpoint translate (from to : text) (a : ascii) : ascii :=
  match from, to with b :: from, c :: to => if Ascii.eqb a b then c else translate from to a | _, _ => a end.
Definition small (a : ascii) : ascii := translate (lit "ABCDEFGHIJKLMNOPQRSTUVWXYZ") (lit "abcdefghijklmnopqrstuvwxyz") a.
