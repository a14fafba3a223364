(** What the associated operators of sums, products and groups should compute: matrices of any sizes. *)
From Verif Require Import Base FlagsModel Algebra Matrix FlagsSpec AssocModel AssocSpec AdjModel.

Section Meaning.
Context {R : cring} (conj : conjugation R).

(** A matrix with any numbers of rows and columns; None for sums and products of matrices that do not fit. *)
Definition value : Type := option {m : nat & {n : nat & mx R m n}}.
Definition matrix {m n} (A : mx R m n) : value := Some (existT _ m (existT _ n A)).
Definition vconj (v : value) : value := match v with Some (existT _ m (existT _ n A)) => matrix (conjmx conj A) | None => None end.
Definition vtr (v : value) : value := match v with Some (existT _ m (existT _ n A)) => matrix (trmx A) | None => None end.
Definition vmul (v w : value) : value :=
  match v, w with
  | Some (existT _ m (existT _ n A)), Some (existT _ n' (existT _ p B)) =>
      match Nat.eq_dec n' n with
      | left e => matrix (mulmx A (eq_rect n' (fun n => mx R n p) B n e))
      | right _ => None
      end
  | _, _ => None
  end.
Definition vadd (v w : value) : value :=
  match v, w with
  | Some (existT _ m (existT _ n A)), Some (existT _ m' (existT _ n' B)) =>
      match Nat.eq_dec m' m, Nat.eq_dec n' n with
      | left e, left e' => matrix (addmx A (eq_rect n' (fun n => mx R m n) (eq_rect m' (fun m => mx R m n') B m e) n e'))
      | _, _ => None
      end
  | _, _ => None
  end.
(** The sum and the product of a list; there are no empty sums and products. *)
Fixpoint vfold (f : value -> value -> value) (l : list value) : value :=
  match l with [] => None | [v] => v | v :: l => f v (vfold f l) end.
Definition combined (k : composite) (l : list value) : value := vfold (match k with Sum => vadd | _ => vmul end) l.

(** The inverse of a square matrix *)
Definition inverse (v w : value) : Prop := exists n (A B : mx R n n), v = matrix A /\ w = matrix B /\ mulmx A B = onemx n /\ mulmx B A = onemx n.

(** What a chain of conjugations, transpositions, adjoints and inversions of v should be, given whether it has an odd number of
    conjugations and adjoints, of transpositions and adjoints, and of inversions. *)
Definition means (v : value) (b : bool * bool * bool) (w : value) : Prop :=
  let '(c, t, i) := b in
  exists u, (if i then inverse v u else u = v) /\ w = (if c then vconj else fun v => v) ((if t then vtr else fun v => v) u).

(** The flags of an operator are true of its matrix. *)
Definition honest_flags (v : value) (f : flags) : Prop :=
  (f Real = true -> vconj v = v) /\ (f Symmetric = true -> vtr v = v) /\ (f Hermitian = true -> vconj (vtr v) = v) /\
  (f Involutary = true -> inverse v v) /\ (f Orthogonal = true -> inverse v (vtr v)) /\ (f Unitary = true -> inverse v (vconj (vtr v))).

(** An operator, as it is seen from the operators that are made of it: its flags, what it computes, and what the operators
    reached from it by a chain of attributes C, T, H, I compute (None if they do not have a method direct). *)
Record operator := Op { o_flags : flags; o_value : value; o_chain : list attr -> option value }.

(** Everything about an operator is right. *)
Definition right (o : operator) : Prop :=
  o_value o <> None /\ honest_flags (o_value o) (o_flags o) /\ o_chain o [] = Some (o_value o) /\
  forall path w, o_chain o path = Some w -> means (o_value o) (bits path) w.

(** What the objects created by _generate_associated_operators compute: see AssocSpec.v; here a rule may give an operator that
    has no method direct. *)
Fixpoint computes (v : value) (rules methods : assoc -> option value) (o : node) : option value :=
  match o with
  | Self => Some v
  | New _ s => source_computes v rules methods s
  end
with source_computes (v : value) (rules methods : assoc -> option value) (s : source) : option value :=
  match s with
  | SRule r => rules r
  | SMethod m => methods m
  | SConjOf o => match computes v rules methods o with Some w => Some (vconj w) | None => None end
  | SNone => None
  end.
Definition chain (t : table) (v : value) (rules methods : assoc -> option value) (path : list attr) : option value :=
  match follow (link t) Self path with Some o => computes v rules methods o | None => None end.

(** An operator with flags, rules and methods given by the user *)
Definition plain (f : flags) (v : value) (rule meth : assoc -> bool) (rules methods : assoc -> option value) : operator :=
  Op f v (chain (generate f rule meth) v rules methods).
Definition right_plain (v : value) (rule meth : assoc -> bool) (rules methods : assoc -> option value) : Prop :=
  (forall r w, rule r = true -> rules r = Some w -> means v (bits (slot_path r)) w) /\
  (forall r w, meth r = true \/ r = aC -> methods r = Some w -> means v (bits (slot_path r)) w).

(** A composite computes the combination of what its operands compute, if all of them compute something; the simplifications, which
    keep what is computed, are the subject of C10 and C11. *)
Fixpoint all_some {A} (l : list (option A)) : option (list A) :=
  match l with
  | [] => Some []
  | Some a :: l => match all_some l with Some l => Some (a :: l) | None => None end
  | None :: _ => None
  end.
Definition by_recipe (k : composite) (operands : list operator) (r : recipe) : option value :=
  match r with
  | None => None
  | Some (path, reversed) =>
      match all_some (map (fun o => o_chain o path) (if reversed then rev operands else operands)) with
      | Some l => Some (combined k l)
      | None => None
      end
  end.
Definition compose (k : composite) (f : flags) (operands : list operator) : operator :=
  let v := combined k (map o_value operands) in
  Op f v (chain (composite_table k f) v (fun r => by_recipe k operands (composite_rule k r)) (fun r => match r with aC => Some (vconj v) | _ => None end)).

(** The operators that are made by sums, products and groups of given operators.  The operands fit; a complex data type is that
    of at least one operand, and an operand that is not real is complex; the operands of a group whose letters are switched are real.
    The condition on sums leaves out those of complex symmetric operators: see C57_adjoint_refuted. *)
Definition dtypes_agree (k : composite) (complex : bool) (l : list flags) : Prop :=
  (complex = false -> Forall (fun f => f Real = true) l) /\ (k = Group true -> Forall (fun f => f Real = true) l).
Inductive expression (P : operator -> Prop) : operator -> Prop :=
| e_operand o : P o -> expression P o
| e_compose k complex f operands : Forall (expression P) operands ->
    composite_flags k complex (map o_flags operands) = Ok f -> dtypes_agree k complex (map o_flags operands) ->
    (k = Sum -> Forall (fun f => f Symmetric = true) (map o_flags operands) -> Forall (fun f => f Hermitian = true) (map o_flags operands)) ->
    combined k (map o_value operands) <> None ->
    expression P (compose k f operands).

(** The operators reached by conjugations, transpositions and adjoints, or also by inversions, compute something. *)
Definition without_inverses (o : operator) : Prop := forall path, ~ In AI path -> o_chain o path <> None.
Definition with_inverses (o : operator) : Prop := forall path, o_chain o path <> None.
End Meaning.
Arguments value : clear implicits.
Arguments operator : clear implicits.
