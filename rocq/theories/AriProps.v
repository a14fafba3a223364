(** Properties of arithmetic with operators and other objects (C58). *)
From Verif Require Import Base Algebra Matrix Gauss AriModel AriSpec AriProofs.
Local Open Scope nat_scope.

(** An expression with linear operators, numbers, matrices, diagonals, +, -, *, powers and divisions by numbers evaluates to a linear
    operator, and this operator and its transpose are given by the matrix that the expression stands for.  Numbers are multiples of the
    identity, the idempotent shortcut included; without the rules of simplification too, but for divisions. *)
Theorem C58_linear (K : cring) (n : nat) (eqb : K -> K -> bool) (recip : K -> K) (rules : bool) (variables : nat -> operator K n) (e : expr K n) (A : mx K n n) :
  (forall a b, eqb a b = true <-> a = b) -> linear_expr n recip rules variables e A ->
  exists id o, eval eqb recip rules variables e = Ok (Op id o) /\ linear_operator n o A.
Proof. intros eqbP H. destruct (linear_right n eqb recip rules variables eqbP e A H) as (o & (id & E & _) & L). exists id, o. auto. Qed.
Print Assumptions C58_linear.

(** The product of such an expression and an array, or a list, is the array that the operator computes; the product of a list and such an
    expression is what its transpose computes. *)
Theorem C58_array (K : cring) (n : nat) (eqb : K -> K -> bool) (recip : K -> K) (rules : bool) (variables : nat -> operator K n) (e : expr K n) (A : mx K n n) (k : sequence) (v : mx K n 1) :
  (forall a b, eqb a b = true <-> a = b) -> linear_expr n recip rules variables e A ->
  eval eqb recip rules variables (Bin Mul e (Lit (Vec k v))) = Ok (Vec Array (mulmx A v)) /\
  eval eqb recip rules variables (Bin Mul (Lit (Vec ListOrTuple v)) e) = Ok (Vec Array (mulmx (trmx A) v)).
Proof. intros eqbP H. split; [exact (array_right n eqb recip rules variables eqbP e A k v H)|exact (array_left n eqb recip rules variables eqbP e A v H)]. Qed.
Print Assumptions C58_array.

(** If an operator of the expression is not linear then sums, products and quotients of operators are those of the values, element by
    element, and so are powers, products and quotients with numbers and products with arrays. *)
Theorem C58_pointwise (K : cring) (n : nat) (eqb : K -> K -> bool) (recip : K -> K) (rules : bool) (variables : nat -> operator K n) (linear : bool) (e : expr K n) (f : mx K n 1 -> mx K n 1) :
  (forall a b, eqb a b = true <-> a = b) -> 0 < n -> function_expr n recip rules variables linear e f ->
  exists id o, eval eqb recip rules variables e = Ok (Op id o) /\ o_linear o = linear /\ forall x, o_direct o x = f x.
Proof. intros eqbP Hn H. destruct (function_right n eqb recip rules variables eqbP linear e f Hn H) as (id & o & E & L & D & _). exists id, o. auto. Qed.
Print Assumptions C58_pointwise.

(** A LinearOperator of scipy whose rmatvec is the product with the transpose becomes the operator of its matrix. *)
Theorem C58_scipy (K : cring) (n : nat) (eqb : K -> K -> bool) (A : mx K n n) :
  exists o, as_operator eqb (Scipy (mulmx A) (mulmx (trmx A))) = Ok o /\ linear_operator n o A.
Proof. exact (scipy_right K n eqb A). Qed.
Print Assumptions C58_scipy.

(** -(2 A B - A ** 2) + A * A / 1 with A = 3 and B = 5, for 7 *)
Definition C58_case_expr : expr Zring 1 :=
  Bin Add (Neg (Bin Sub (Bin Mul (Bin Mul (Lit (Num (2%Z : Zring))) (Var 1)) (Var 3)) (Pow (Var 1) 2))) (Bin Div (Bin Mul (Var 2) (Var 2)) (Lit (Num (1%Z : Zring)))).
Example C58_linear_case : run true C58_case_expr 7 = Ok (Some [(-140)%Z]) /\ exists A, linear_expr 1 zrecip true sample C58_case_expr A.
Proof.
  split; [vm_compute; reflexivity|]. eexists. unfold C58_case_expr. eapply l_add.
  - eapply l_neg, l_sub; [|eapply l_pow, l_var, (sample_linear 1); auto]. eapply l_mul; [|eapply l_var, (sample_linear 3); auto]. eapply l_mul_l; [eapply l_var, (sample_linear 1); auto|apply m_num].
  - eapply l_div; [reflexivity|]. eapply l_mul; apply l_var, sample_identity.
Qed.
(** (f + A) f, with the square f and A = 3, for 2 *)
Example C58_pointwise_case : run true (Bin Mul (Bin Add (Var 0) (Var 1)) (Var 0)) 2 = Ok (Some [40%Z]) /\
  exists f, function_expr 1 zrecip true sample false (Bin Mul (Bin Add (Var 0) (Var 1)) (Var 0)) f.
Proof.
  split; [vm_compute; reflexivity|]. eexists. eapply (f_mul 1 zrecip true sample false false); [|apply f_var; reflexivity|reflexivity|discriminate|discriminate].
  eapply (f_add 1 zrecip true sample false true); [apply f_var; reflexivity|eapply f_linear, l_var, (sample_linear 1); auto|reflexivity].
Qed.

(** (f + A)**3, with the square f and A = 3, for 2: the power is that of the elements, whereas A**3 is a composition *)
Example C58_power_case : run true (Pow (Bin Add (Var 0) (Var 1)) 3) 2 = Ok (Some [1000%Z]) /\ run true (Pow (Var 1) 3) 2 = Ok (Some [54%Z]) /\
  exists f, function_expr 1 zrecip true sample false (Pow (Bin Add (Var 0) (Var 1)) 3) f.
Proof.
  split; [vm_compute; reflexivity|]. split; [vm_compute; reflexivity|]. eexists. apply f_pow; [|lia].
  eapply (f_add 1 zrecip true sample false true); [apply f_var; reflexivity|eapply f_linear, l_var, (sample_linear 1); auto|reflexivity].
Qed.

(** The negation of an operator that is not linear is not the negation of its values: -f is the element-wise product of HomothetyOperator(-1)
    and f, so (-f)(x) is -x f(x).  For the square, (-f)(2) is -8. *)
Theorem C58_negation_refuted : exists (variables : nat -> operator Zring 1) (x : mx Zring 1 1) id o,
  eval zeqb zrecip true variables (Neg (Var 0)) = Ok (Op id o) /\ mx_list (o_direct (variables 0) x) = [4%Z] /\ mx_list (o_direct o x) = [(-8)%Z].
Proof. exists sample, (one 2). eexists _, _. split; [reflexivity|]. split; vm_compute; reflexivity. Qed.
Print Assumptions C58_negation_refuted.

(** The same happens to differences: with the square f and A = 3, (A - f)(2) is 6 - 8 and not 6 - 4, although (A + f)(2) is 6 + 4. *)
Theorem C58_subtraction_refuted : exists (variables : nat -> operator Zring 1) (x : mx Zring 1 1) id o id' o',
  eval zeqb zrecip true variables (Bin Sub (Var 1) (Var 0)) = Ok (Op id o) /\ eval zeqb zrecip true variables (Bin Add (Var 1) (Var 0)) = Ok (Op id' o') /\
  mx_list (o_direct (variables 1) x) = [6%Z] /\ mx_list (o_direct (variables 0) x) = [4%Z] /\ mx_list (o_direct o' x) = [10%Z] /\ mx_list (o_direct o x) = [(-2)%Z].
Proof. exists sample, (one 2). eexists _, _, _, _. split; [reflexivity|]. split; [reflexivity|]. repeat split; vm_compute; reflexivity. Qed.
Print Assumptions C58_subtraction_refuted.

(** A number is a constant in a product with an operator that is not linear, but a multiple of the identity in a sum: f * 3 is 3 f(x) and
    f + 3 is f(x) + 3 x.  For the square, f * 3 at 2 is 12 and f + 3 at 2 is 10, not 7. *)
Theorem C58_number_refuted : exists (variables : nat -> operator Zring 1) (x : mx Zring 1 1) id o id' o',
  eval zeqb zrecip true variables (Bin Mul (Var 0) (Lit (Num (3%Z : Zring)))) = Ok (Op id o) /\ eval zeqb zrecip true variables (Bin Add (Var 0) (Lit (Num (3%Z : Zring)))) = Ok (Op id' o') /\
  mx_list (o_direct (variables 0) x) = [4%Z] /\ mx_list (o_direct o x) = [12%Z] /\ mx_list (o_direct o' x) = [10%Z].
Proof. exists sample, (one 2). eexists _, _, _, _. split; [reflexivity|]. split; [reflexivity|]. repeat split; vm_compute; reflexivity. Qed.
Print Assumptions C58_number_refuted.

(** A list or a function can be added to any operator, but never subtracted: __sub__ applies the unary minus to the list or function, which
    raises TypeError, although asoperator accepts both. *)
Theorem C58_list_refuted : forall (K : cring) (n : nat) (eqb : K -> K -> bool) (recip : K -> K) (rules : bool) (variables : nat -> operator K n) (i : nat) (v : mx K n 1) (f : mx K n 1 -> mx K n 1),
  (exists o, eval eqb recip rules variables (Bin Add (Var i) (Lit (Vec ListOrTuple v))) = Ok (Op None o)) /\
  eval eqb recip rules variables (Bin Sub (Var i) (Lit (Vec ListOrTuple v))) = Raise TypeError /\
  (exists o, eval eqb recip rules variables (Bin Add (Var i) (Lit (Fun f))) = Ok (Op None o)) /\
  eval eqb recip rules variables (Bin Sub (Var i) (Lit (Fun f))) = Raise TypeError.
Proof. intros. split; [eexists; reflexivity|]. split; [reflexivity|]. split; [eexists; reflexivity|reflexivity]. Qed.
Print Assumptions C58_list_refuted.

(** The transpose of asoperator(L), for a complex LinearOperator L of scipy, is its adjoint: rmatvec, which scipy defines as the product with
    the adjoint, is taken as transpose.  For L = [[i]] the transpose of the operator computes -i. *)
Theorem C58_transpose_refuted : exists (A : mx Gring 1 1) (eqb : Gring -> Gring -> bool) o (x : mx Gring 1 1),
  as_operator eqb (Scipy (mulmx A) (mulmx (mapmx Gconj (trmx A)))) = Ok o /\ o_linear o = true /\
  mx_list (mulmx (trmx A) x) = [GI 0 1] /\ mx_list (o_transpose o x) = [GI 0 (-1)].
Proof.
  exists (build 1 1 (fun _ _ => (GI 0 1 : Gring))), (fun _ _ => false). eexists. exists (build 1 1 (fun _ _ => (GI 1 0 : Gring))). split; [reflexivity|]. repeat split; vm_compute; reflexivity.
Qed.
Print Assumptions C58_transpose_refuted.

(** The meaning of a product depends on the rules of simplification: (A / 1) * B is a linear operator, the composition, only because a rule
    makes A / 1 linear.  With the rules switched off it is the element-wise product of the values: with A = 3 and B = 5, it is 3 x 5 x
    instead of 15 x. *)
Theorem C58_rules_refuted : let e := Bin Mul (Bin Div (Var 1) (Lit (Num (1%Z : Zring)))) (Var 3) in
  exists id o id' o', eval zeqb zrecip true sample e = Ok (Op id o) /\ eval zeqb zrecip false sample e = Ok (Op id' o') /\
  o_linear o = true /\ mx_list (o_direct o (one 2)) = [30%Z] /\ o_linear o' = false /\ mx_list (o_direct o' (one 2)) = [60%Z].
Proof. eexists _, _, _, _. split; [reflexivity|]. split; [reflexivity|]. repeat split; vm_compute; reflexivity. Qed.
Print Assumptions C58_rules_refuted.

(** The product of an array and an operator is not what __rmul__ computes for a list, the transpose of the operator applied to it: numpy
    makes an array of as many operators as the array has elements. *)
Theorem C58_left_array_refuted : forall (K : cring) (n : nat) (eqb : K -> K -> bool) (recip : K -> K) (rules : bool) (variables : nat -> operator K n) (i : nat) (v : mx K n 1),
  o_linear (variables i) = true ->
  eval eqb recip rules variables (Bin Mul (Lit (Vec ListOrTuple v)) (Var i)) = Ok (Vec Array (o_transpose (variables i) v)) /\
  exists l, eval eqb recip rules variables (Bin Mul (Lit (Vec Array v)) (Var i)) = Ok (Objects l) /\ length l = n /\ Forall (fun x => exists id o, x = Op id o) l.
Proof. intros K n eqb recip rules variables i v H. exact (left_array n eqb recip rules variables i v H). Qed.
Print Assumptions C58_left_array_refuted.
