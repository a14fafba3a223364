(** What a product, a sum and an element-wise product of operators are. An operator is given by the relation between its inputs
    and its outputs (one output for each input it accepts, but nothing here depends on that). *)
From Verif Require Import Base Algebra EngineModel.

Section EngineSpec.
Context {op X : Type} (den : op -> X -> X -> Prop).

(** A1(A2(...An(x))) = y *)
Fixpoint composes (l : list op) (x y : X) : Prop :=
  match l with
  | [] => x = y
  | o :: l' => exists z, composes l' x z /\ den o z y
  end.

(** Combining the outputs, by an operation [comb a b = c] (equal shapes may be required) *)
Variable comb : X -> X -> X -> Prop.
Fixpoint total (ys : list X) (y : X) : Prop :=
  match ys with
  | [] => False
  | [a] => a = y
  | a :: ys' => exists b, total ys' b /\ comb a b y
  end.
Definition combines (l : list op) (x y : X) : Prop :=
  exists ys, Forall2 (fun o a => den o x a) l ys /\ total ys y.
Record commutative_operation : Prop := {
  comb_comm : forall a b y, comb a b y -> comb b a y;
  comb_assoc : forall a b c u y, comb a b u -> comb u c y -> exists v, comb b c v /\ comb a v y
}.

(** A rule is sound for a pair when what it returns does the same as the pair.  [good] is an invariant of the operators. *)
Variable good : op -> Prop.
Definition list_of_news (n : news op) : list op := match n with One o => [o] | Tuple l => l end.
Definition sound_rule (o1 o2 : op) (r : rule op) : Prop :=
  forall n, r o1 o2 = ret (Some n) ->
    Forall good (list_of_news n) /\ forall x y, composes [o1; o2] x y -> composes (list_of_news n) x y.
Definition sound_rule1 (o1 o2 : op) (r : op -> op -> out (option op)) : Prop :=
  forall o, r o1 o2 = ret (Some o) ->
    good o /\ forall x y, combines [o1; o2] x y -> den o x y.
End EngineSpec.

(** Scalars.  [homogeneous r]: the image of k x is k times the image of x. *)
Section Scalars.
Context {K : cring} {op X : Type} (den : op -> X -> X -> Prop) (scal : K -> X -> X).
Definition homogeneous (r : X -> X -> Prop) : Prop :=
  forall k x y, r (scal k x) y <-> exists y', r x y' /\ y = scal k y'.
Record scaling : Prop := {
  scal_1 : forall x, scal r1 x = x;
  scal_mul : forall a b x, scal (rmul a b) x = scal a (scal b x)
}.
Variables (good : op -> Prop) (linear : op -> bool) (scalar_of : op -> option K) (identity : op) (homothety : K -> op).
(** What the homothety stage supposes of the operators. *)
Record scalar_operators : Prop := {
  linear_homogeneous : forall o, good o -> linear o = true -> homogeneous (den o);
  scalar_of_den : forall o d x y, good o -> scalar_of o = Some d -> den o x y -> y = scal d x;
  identity_good : good identity;
  identity_linear : linear identity = true;
  identity_den : forall x, den identity x x;
  identity_scalar : scalar_of identity = None;
  homothety_good : forall d, good (homothety d);
  homothety_den : forall d x, den (homothety d) x (scal d x)
}.
Definition sound_absorption (o1 o2 : op) (r : op -> op -> out (option op)) : Prop :=
  forall o, r o1 o2 = ret (Some o) -> good o /\ forall x y, composes den [o1; o2] x y -> den o x y.
(** Number of scalar factors in a list of operators. *)
Definition scalars (l : list op) : nat := length (filter (fun o => match scalar_of o with Some _ => true | None => false end) l).
(** What the stage may do to a maximal run of operators that are all linear, or all non-linear. *)
Definition run_kept (g : bool * list op) (g' : list op) : Prop :=
  (fst g = false -> g' = snd g) /\ (fst g = true -> scalars g' <= 1) /\ forall x y, composes den (snd g) x y -> composes den g' x y.
End Scalars.
