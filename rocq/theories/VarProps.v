(** C61: expressions with variables *)
From Verif Require Import Base Algebra Matrix VarModel VarSpec VarProofs.

(** C61.  An expression that gives a linear operator gives one that means what the expression means: for all the values of the variables,
    the product or the sum of the operands of the result is the value of the expression, and it has none if the expression has none. *)
Theorem C61_meaning {K : cring} {n} (eqb : K -> K -> bool) (E : forall a b, eqb a b = true <-> a = b) (x : nat -> mx K n 1) :
  forall e operands, eval eqb e = Ok (Op operands) -> product x operands = meaning x e.
Proof. intros e l H. exact (eval_holds E x H). Qed.
(** A number is the value of the expression. *)
Theorem C61_number {K : cring} {n} (eqb : K -> K -> bool) (E : forall a b, eqb a b = true <-> a = b) (x : nat -> mx K n 1) :
  forall e a, eval eqb e = Ok (Num a) -> meaning x e = Some (Sc a).
Proof. intros e a H. exact (eval_holds E x H). Qed.
Example C61_meaning_ex : exists l M, eval Zeqb (ex_form true) = Ok (Op l) /\ length l = 4 /\ product ex_x l = Some (One M) /\ mx_list M = [714%Z].
Proof.
  eexists. eexists. split; [reflexivity|]. split; [reflexivity|]. split; [rewrite (C61_meaning Zeqb Zeqb_spec ex_x (ex_form true)); reflexivity|].
  vm_compute. reflexivity.
Qed.

(** An expression without sum that gives a linear operator has matching dimensions: nothing else is accepted. *)
Theorem C61_typed {K : cring} {n} (eqb : K -> K -> bool) (E : forall a b, eqb a b = true <-> a = b) (x : nat -> mx K n 1) :
  forall e operands, no_sum e -> eval eqb e = Ok (Op operands) -> exists v, meaning x e = Some v.
Proof. intros e l N H. exact (eval_typed E x N H). Qed.
Example C61_typed_ex : no_sum (ex_form true) /\ is_ok (eval Zeqb (ex_form true)) = true /\
  eval Zeqb (EMul (EMul (ET (EVar 0)) (EVar 1)) (ELin ex_A false)) = Raise TypeError /\ eval Zeqb (EMul (ELin ex_A false) (ET (EVar 0))) = Raise TypeError.
Proof. split; [cbn; tauto|]. split; [reflexivity|]. split; reflexivity. Qed.

(** The products that CompositionOperator accepts are exactly these: but for the scalars, an optional transposed variable, linear
    operators and an optional variable; and after a transposed variable the product of the scalars is one, or an operator takes it. *)
Theorem C61_accepted {K : cring} {n} (eqb : K -> K -> bool) (E : forall a b, eqb a b = true <-> a = b) :
  forall l : list (atom K n), 2 <= length l -> (forall a, In a l -> ~ is_sum a) -> scalars l <> r0 ->
  ((exists l', compose eqb l = Ok l') <->
   well_formed (filter not_scalar l) /\ (starts_with_row (filter not_scalar l) -> scalars l = r1 \/ exists A, In (Lin A true) l)).
Proof. exact (compose_accepts E). Qed.
Example C61_accepted_ex : (exists l, compose (n := 2) Zeqb [VarT 0; Hom (2%Z : Zring); Lin ex_A true; Var 1] = Ok l) /\
  compose (n := 2) Zeqb [VarT 0; Hom (2%Z : Zring); Lin ex_A false; Var 1] = Raise ValueError.
Proof. split; [eexists; vm_compute; reflexivity|reflexivity]. Qed.

(** Operators applied to a variable, the transpose of this, and the product of a transposed variable with this are accepted. *)
Theorem C61_forms {K : cring} {n} (eqb : K -> K -> bool) (E : forall a b, eqb a b = true <-> a = b) :
  forall (operators : list (mx K n n * bool)) i j,
  is_ok (eval eqb (chain operators (EVar i))) = true /\ is_ok (eval eqb (ET (chain operators (EVar i)))) = true /\
  is_ok (eval eqb (EMul (ET (EVar i)) (chain operators (EVar j)))) = true.
Proof. intros l i j. now rewrite (eval_chain E), (eval_row E), (eval_quadratic E). Qed.
Example C61_forms_ex : eval Zeqb (EMul (ET (EVar 0)) (chain [(ex_A, false); (ex_A, true)] (EVar 1))) = Ok (Op [VarT 0; Lin ex_A false; Lin ex_A true; Var 1]).
Proof. reflexivity. Qed.

(** Finding: a scalar cannot be multiplied with a transposed variable. 2 * X.T, X.T * 2, (2 * X).T, 2 * (X.T * Y) and X.T * (2 * A), all of which have a meaning, raise a ValueError, because the scalar is moved to the front of the product, where the rule of VariableTranspose rejects any operator. *)
Theorem C61_scaled_row_refuted {K : cring} {n} (eqb : K -> K -> bool) (E : forall a b, eqb a b = true <-> a = b) (x : nat -> mx K n 1) :
  forall (a : K) A i j, a <> r0 -> a <> r1 ->
  forall e, In e [EMul (ENum a) (ET (EVar i)); EMul (ET (EVar i)) (ENum a); ET (EMul (ENum a) (EVar i));
    EMul (ENum a) (EMul (ET (EVar i)) (EVar j)); EMul (ET (EVar i)) (EMul (ENum a) (ELin A false))] ->
  meaning x e <> None /\ eval eqb e = Raise ValueError.
Proof.
  intros a A i j a0 a1 e H. repeat destruct H as [<-|H]; try contradiction; (split; [discriminate|]).
  - now apply scalar_row.
  - now apply row_scalar.
  - now apply scaled_column_transpose.
  - now apply scaled_dot.
  - now apply row_scaled_operator.
Qed.
(** Finding: -X.T and X.T - Y.T, which are products with HomothetyOperator(-1), raise a ValueError. *)
Theorem C61_minus_row_refuted {K : cring} {n} (eqb : K -> K -> bool) (E : forall a b, eqb a b = true <-> a = b) (x : nat -> mx K n 1) :
  (ropp r1 : K) <> r0 -> (ropp r1 : K) <> r1 -> forall i j e, In e [ENeg (ET (EVar i)); ESub (ET (EVar i)) (ET (EVar j))] ->
  meaning x e <> None /\ eval eqb e = Raise ValueError.
Proof.
  intros m0 m1 i j e H. repeat destruct H as [<-|H]; try contradiction; (split; [discriminate|]).
  - now apply minus_row.
  - now apply row_minus_row.
Qed.
(** Finding: X * Y.T raises a TypeError: Variable.__mul__ has a case for it, but the composition it makes is always rejected by the rule of Variable. *)
Theorem C61_outer_refuted {K : cring} {n} (eqb : K -> K -> bool) (E : forall a b, eqb a b = true <-> a = b) (x : nat -> mx K n 1) :
  forall i j, meaning x (EMul (EVar i) (ET (EVar j))) <> None /\ eval (n := n) eqb (EMul (EVar i) (ET (EVar j))) = Raise TypeError.
Proof. intros i j. split; [discriminate|now apply outer_rejected]. Qed.
(** Finding: X * (Y.T * A), the product of a column and a row, silently gives an element-wise product, whereas X * Y.T raises an exception. *)
Theorem C61_outer_product_refuted {K : cring} {n} (eqb : K -> K -> bool) (E : forall a b, eqb a b = true <-> a = b) (x : nat -> mx K n 1) :
  forall i j A t, meaning x (EMul (EVar i) (EMul (ET (EVar j)) (ELin A t))) <> None /\
  eval eqb (EMul (EVar i) (EMul (ET (EVar j)) (ELin A t))) = Ok NonLinear.
Proof. intros i j A t. split; [discriminate|now apply outer_hadamard]. Qed.
(** Finding: sums escape the checks. (X + Y) * A is accepted as a composition although X * A is not one, and so are X + X.T and X + A; none of these has a meaning. *)
Theorem C61_sums_refuted {K : cring} {n} (eqb : K -> K -> bool) (E : forall a b, eqb a b = true <-> a = b) (x : nat -> mx K n 1) :
  forall i j A t e, In e [EMul (EAdd (EVar i) (EVar j)) (ELin A t); EAdd (EVar i) (ET (EVar i)); EAdd (EVar i) (ELin A t)] ->
  meaning x e = None /\ exists l, eval eqb e = Ok (Op l).
Proof.
  intros i j A t e H. repeat destruct H as [<-|H]; try contradiction; (split; [reflexivity|]).
  - eexists. now apply sum_times_operator.
  - eexists. reflexivity.
  - eexists. reflexivity.
Qed.
Example C61_refuted_ex : (-1)%Z <> 0%Z /\ (-1)%Z <> 1%Z /\ eval (n := 2) Zeqb (ENeg (ET (EVar 0))) = Raise ValueError /\
  eval (n := 2) Zeqb (EMul (ENum (2%Z : Zring)) (EAdd (ET (EVar 0)) (ET (EVar 1)))) = Ok (Op [Hom (2%Z : Zring); Sum [VarT 0] [VarT 1]]).
Proof. repeat split; discriminate || reflexivity. Qed.

Print Assumptions C61_meaning.
Print Assumptions C61_number.
Print Assumptions C61_typed.
Print Assumptions C61_accepted.
Print Assumptions C61_forms.
Print Assumptions C61_scaled_row_refuted.
Print Assumptions C61_minus_row_refuted.
Print Assumptions C61_outer_refuted.
Print Assumptions C61_outer_product_refuted.
Print Assumptions C61_sums_refuted.
