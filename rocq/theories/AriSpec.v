(** What arithmetic expressions with operators should give. *)
From Verif Require Import Base Algebra Matrix AriModel.

Section Spec.
Context {K : cring} (n : nat) (recip : K -> K) (rules : bool).
Notation vec := (mx K n 1).

(** The operator is linear and given by a matrix, and what is said of it is true. *)
Definition linear_operator (o : operator K n) (A : mx K n n) : Prop :=
  o_linear o = true /\ (forall x, o_direct o x = mulmx A x) /\ (forall x, o_transpose o x = mulmx (trmx A) x) /\
  (o_idempotent o = true -> mulmx A A = A) /\ (o_zero o = true -> A = zeromx).

Definition oppmx {m p} (A : mx K m p) : mx K m p := mapmx ropp A.
Fixpoint powmx (A : mx K n n) (k : nat) : mx K n n := match k with 0 => onemx n | S k => mulmx A (powmx A k) end.
Definition diag_of (v : vec) : mx K n n := build n n (fun i j => if Nat.eqb i j then el v i 0 else r0).
Definition inverses (u : vec) : vec := build n 1 (fun i j => recip (el u i j)).
(** Numbers are multiples of the identity. *)
Inductive as_matrix : object K n -> mx K n n -> Prop :=
| m_num a : as_matrix (Num a) (scalarmx n a)
| m_mat M : as_matrix (Mat M) M.

(** The expressions with linear operators, numbers and matrices stand for matrices.  A division by a number or an array needs the rules of
    simplification. *)
Inductive linear_expr (variables : nat -> operator K n) : expr K n -> mx K n n -> Prop :=
| l_var i A : linear_operator (variables i) A -> linear_expr variables (Var i) A
| l_neg e A : linear_expr variables e A -> linear_expr variables (Neg e) (oppmx A)
| l_add e e' A B : linear_expr variables e A -> linear_expr variables e' B -> linear_expr variables (Bin Add e e') (addmx A B)
| l_sub e e' A B : linear_expr variables e A -> linear_expr variables e' B -> linear_expr variables (Bin Sub e e') (addmx A (oppmx B))
| l_mul e e' A B : linear_expr variables e A -> linear_expr variables e' B -> linear_expr variables (Bin Mul e e') (mulmx A B)
| l_add_r e x A B : linear_expr variables e A -> as_matrix x B -> linear_expr variables (Bin Add e (Lit x)) (addmx A B)
| l_sub_r e x A B : linear_expr variables e A -> as_matrix x B -> linear_expr variables (Bin Sub e (Lit x)) (addmx A (oppmx B))
| l_mul_r e x A B : linear_expr variables e A -> as_matrix x B -> linear_expr variables (Bin Mul e (Lit x)) (mulmx A B)
| l_mul_l e x A B : linear_expr variables e A -> as_matrix x B -> linear_expr variables (Bin Mul (Lit x) e) (mulmx B A)
| l_add_l e a A : linear_expr variables e A -> linear_expr variables (Bin Add (Lit (Num a)) e) (addmx (scalarmx n a) A)
| l_sub_l e a A : linear_expr variables e A -> linear_expr variables (Bin Sub (Lit (Num a)) e) (addmx (scalarmx n a) (oppmx A))
| l_add_diag e k v A : linear_expr variables e A -> linear_expr variables (Bin Add e (Lit (Vec k v))) (addmx A (diag_of v))
| l_diag_add e v A : linear_expr variables e A -> linear_expr variables (Bin Add (Lit (Vec ListOrTuple v)) e) (addmx (diag_of v) A)
| l_div e a A : rules = true -> linear_expr variables e A -> linear_expr variables (Bin Div e (Lit (Num a))) (mulmx (scalarmx n (recip a)) A)
| l_div_diag e k v A : rules = true -> linear_expr variables e A -> linear_expr variables (Bin Div e (Lit (Vec k v))) (mulmx (diag_of (inverses v)) A)
| l_pow e k A : linear_expr variables e A -> linear_expr variables (Pow e k) (powmx A k).

(** The other expressions stand for functions, and their sums, products and quotients are taken element by element.  The first argument
    tells whether the expression is linear; zero operators and zero factors are left out. *)
Definition product (u v : vec) : vec := build n 1 (fun i j => rmul (el u i j) (el v i j)).
Definition constant (a : K) : vec := build n 1 (fun _ _ => a).
Definition nontrivial (linear : bool) (f : vec -> vec) : Prop := linear = true -> exists x, f x <> zeromx.
Fixpoint times (k : nat) (a : K) : K := match k with 0 => r1 | S k => rmul a (times k a) end.
Definition powers (k : nat) (u : vec) : vec := build n 1 (fun i j => times k (el u i j)).
Inductive function_expr (variables : nat -> operator K n) : bool -> expr K n -> (vec -> vec) -> Prop :=
| f_linear e A : linear_expr variables e A -> function_expr variables true e (mulmx A)
| f_var i : o_linear (variables i) = false -> o_zero (variables i) = false -> function_expr variables false (Var i) (o_direct (variables i))
| f_add b b' e e' f g : function_expr variables b e f -> function_expr variables b' e' g -> b && b' = false ->
    function_expr variables false (Bin Add e e') (fun x => addmx (f x) (g x))
| f_mul b b' e e' f g : function_expr variables b e f -> function_expr variables b' e' g -> b && b' = false -> nontrivial b f -> nontrivial b' g ->
    function_expr variables false (Bin Mul e e') (fun x => product (f x) (g x))
| f_div b b' e e' f g : function_expr variables b e f -> function_expr variables b' e' g -> nontrivial b f -> nontrivial b' g ->
    function_expr variables false (Bin Div e e') (fun x => product (f x) (inverses (g x)))
| f_scale e f a : function_expr variables false e f -> a <> r0 -> function_expr variables false (Bin Mul (Lit (Num a)) e) (fun x => product (constant a) (f x))
| f_scale_r e f a : function_expr variables false e f -> a <> r0 -> function_expr variables false (Bin Mul e (Lit (Num a))) (fun x => product (f x) (constant a))
| f_weight e f k v : function_expr variables false e f -> v <> zeromx -> function_expr variables false (Bin Mul e (Lit (Vec k v))) (fun x => product (f x) v)
| f_weight_l e f v : function_expr variables false e f -> v <> zeromx -> function_expr variables false (Bin Mul (Lit (Vec ListOrTuple v)) e) (fun x => product v (f x))
| f_div_diag e f k v : function_expr variables false e f -> inverses v <> zeromx -> function_expr variables false (Bin Div e (Lit (Vec k v))) (fun x => product (f x) (inverses v))
| f_div_num e f a : function_expr variables false e f -> recip a <> r0 -> function_expr variables false (Bin Div e (Lit (Num a))) (fun x => product (f x) (constant (recip a)))
| f_num_div b e f a : function_expr variables b e f -> nontrivial b f -> a <> r0 ->
    function_expr variables false (Bin Div (Lit (Num a)) e) (fun x => product (constant a) (inverses (f x)))
| f_pow e f k : function_expr variables false e f -> 1 <= k -> function_expr variables false (Pow e k) (fun x => powers k (f x)).
End Spec.
