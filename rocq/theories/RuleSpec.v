(** What the documentation of set_rule and del_rule says. *)
From Verif Require Import Base RuleModel.

Section RuleSpec.
Context {class : Type} (class_eqb subclass : class -> class -> bool) {pred : Type}.
Notation rule := (rule class pred).

(** A class hierarchy. *)
Record hierarchy : Prop := {
  class_eqb_spec : forall c d, class_eqb c d = true <-> c = d;
  sub_refl : forall c, subclass c c = true;
  sub_trans : forall c d e, subclass c d = true -> subclass d e = true -> subclass c e = true;
  sub_antisym : forall c d, subclass c d = true -> subclass d c = true -> c = d
}.

(** The rule [r] must not be tried before [s]: s is about a symbol and r about a class, or s is about a proper subclass of
    the class of r. *)
Definition must_follow (r s : rule) : Prop :=
  match other class_eqb r, other class_eqb s with
  | Cls _, Str _ => True
  | Cls c, Cls d => subclass d c = true /\ d <> c
  | Str _, _ => False
  end.
Definition well_ordered (l : list rule) : Prop :=
  forall i j r s, i < j -> nth_error l i = Some r -> nth_error l j = Some s -> ~ must_follow r s.
(** No two rules have the same subjects. *)
Definition unique (l : list rule) : Prop := NoDup (map subjects l).
(** The rules with other subjects, in their order. *)
Definition others (s : subject class * subject class) (l : list rule) : list rule :=
  filter (fun r => negb (subjects_eqb class_eqb (subjects r) s)) l.
(** The four lists. *)
Definition all_lists (P : list rule -> Prop) (t : lists class pred) : Prop :=
  P (add_rules t) /\ P (mul_rules t) /\ P (left_rules t) /\ P (right_rules t).
(** The list that is changed, and the subjects under which the rule is kept in it. *)
Definition list_of (o : operation) (s : subject class * subject class) (t : lists class pred) : list rule :=
  match o with
  | Addition => add_rules t
  | Multiplication => mul_rules t
  | Composition => if is_dot class_eqb (snd s) then right_rules t else left_rules t
  end.
Definition kept_as (o : operation) (s : subject class * subject class) : subject class * subject class :=
  match o with
  | Composition => s
  | _ => if is_dot class_eqb (snd s) then (snd s, fst s) else s
  end.
Definition same_list (o : operation) (s : subject class * subject class) (o' : operation) (s' : subject class * subject class) : Prop :=
  o = o' /\ (o = Composition -> is_dot class_eqb (snd s) = is_dot class_eqb (snd s')).
End RuleSpec.
