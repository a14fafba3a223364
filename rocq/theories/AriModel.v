(** Arithmetic of operators and other objects: core.py, asoperator (4841-4917) and the special methods of Operator (1470-1545). *)
From Verif Require Import Base Algebra Matrix.

Section Model.
(** The arrays have one dimension and n elements, and the operators take and give such arrays; an array is a column.  [eqb] compares
    elements (the inspection of the data by ConstantOperator and DiagonalOperator), [recip] is np.reciprocal of an element. *)
Context {K : cring} (n : nat) (eqb : K -> K -> bool) (recip : K -> K).
Notation vec := (mx K n 1).

(** What is used of an operator: the flags linear and idempotent, whether its class is ZeroOperator, what it computes and what its
    transpose computes.  The shapes, data types and other flags are left out; the transpose of an operator that is not linear is not
    used. *)
Record operator := Oper { o_linear : bool; o_idempotent : bool; o_zero : bool; o_direct : vec -> vec; o_transpose : vec -> vec }.

(** Element-wise operations of numpy *)
Definition vmap2 (f : K -> K -> K) (u v : vec) : vec := build n 1 (fun i j => f (el u i j) (el v i j)).
Definition vfill (a : K) : vec := build n 1 (fun _ _ => a).
Definition vhad : vec -> vec -> vec := vmap2 rmul.
(** np.all(data == 0) *)
Definition all_zero (v : vec) : bool := forallb (fun a => eqb a r0) (mx_list v).

(** Python objects: numbers (also arrays without dimension), lists or tuples of numbers, arrays, instances of np.matrix, functions
    (their direct is [f]), scipy's LinearOperator, operators, arrays of objects, anything else.  An operator that is bound to a
    variable of the expression has the number of the variable, for the test 'self is other'. *)
Inductive sequence := ListOrTuple | Array.
Inductive object :=
| Num (a : K) | Vec (k : sequence) (v : vec) | Mat (M : mx K n n) | Fun (f : vec -> vec) | Scipy (matvec rmatvec : vec -> vec)
| Op (id : option nat) (o : operator) | Objects (l : list object) | Other.

(** What is not modelled *)
Definition not_modelled {A} : result A := Raise (OtherError 0).

(** ** Operators *)
(** ZeroOperator, 4533-4566 *)
Definition zero_op : operator := Oper true false true (fun _ => zeromx) (fun _ => zeromx).
(** DiagonalOperator(data), 4243-4279: data that are all zero give a ZeroOperator.  IdentityOperator, HomothetyOperator and
    MaskOperator, which it may also become, compute the same; IdentityOperator, which is idempotent, is a new object here. *)
Definition diagonal (v : vec) : operator := if all_zero v then zero_op else Oper true false false (vhad v) (vhad v).
(** HomothetyOperator(a), 4355-4374 *)
Definition homothety (a : K) : operator :=
  if eqb a r0 then zero_op else Oper true false false (mapmx (rmul a)) (mapmx (rmul a)).
(** DenseOperator, for an instance of np.matrix *)
Definition dense (M : mx K n n) : operator := Oper true false false (mulmx M) (mulmx (trmx M)).
Definition nonlinear (f : vec -> vec) : operator := Oper false false false f f.

(** [rules]: the rules of simplification are not switched off (rule_manager).  The rules of the operands' own classes keep what is
    computed (C10, C11) and are left out, but for those that change the flag linear: with the operators of class ZeroOperator and with
    constants.  The rules of PowerOperator are left out although they may change this flag too: 1 / (1 / A) is A, and A / I is a constant
    for a diagonal A, so that further products with them may be compositions; see C39 for these rules.  AdditionOperator([a, b]), 2013-2034, the rule of ZeroOperator 4544 *)
Context (rules : bool).
Definition addition (a b : operator) : operator :=
  if rules && o_zero a then b
  else if rules && o_zero b then a
  else Oper (o_linear a && o_linear b) false false (fun x => addmx (o_direct a x) (o_direct b x)) (fun x => addmx (o_transpose a x) (o_transpose b x)).
(** CompositionOperator([a, b]) of linear operators, 2287-2327, the rules of ZeroOperator 4552-4563 *)
Definition composition (a b : operator) : operator :=
  if rules && (o_zero a || o_zero b) then zero_op
  else Oper (o_linear a && o_linear b) false false (fun x => o_direct a (o_direct b x)) (fun x => o_transpose b (o_transpose a x)).
(** MultiplicationOperator([a, b]), 2047-2062, the rule of ZeroOperator 4545 *)
Definition multiplication (a b : operator) : operator :=
  if rules && (o_zero a || o_zero b) then zero_op else nonlinear (fun x => vhad (o_direct a x) (o_direct b x)).
(** MultiplicationOperator of a constant and an operator, 4436-4505: ConstantOperator(0) is a ZeroOperator, the product of a constant
    and a linear operator is a composition with DiagonalOperator *)
Definition multiply_constant (v : vec) (a : operator) : operator :=
  if all_zero v then multiplication zero_op a
  else if rules && o_linear a then composition (diagonal v) a
  else if rules && o_zero a then zero_op
  else nonlinear (fun x => vhad v (o_direct a x)).

(** ** asoperator, 4841-4917.  Without constant; sparse matrices are the subject of C47 *)
Definition as_operator (x : object) : result operator :=
  match x with
  | Op _ o => Ok o
  | Num a => Ok (homothety a)
  | Vec _ v => Ok (diagonal v)
  | Mat M => Ok (dense M)
  | Scipy matvec rmatvec => Ok (Oper true false false matvec rmatvec)
  | Fun f => Ok (nonlinear f)
  | Objects _ | Other => Raise TypeError
  end.
(** The constants, if asoperator is called with constant=True: numbers and arrays but not instances of np.matrix *)
Definition as_constant (x : object) : option vec :=
  match x with Num a => Some (vfill a) | Vec _ v => Some v | _ => None end.

(** ** The special methods, for the operator [o], which is the object [Op id o] *)
Definition fresh (o : operator) : object := Op None o.
(** __mul__ 1480-1499 *)
Definition mul (id : option nat) (o : operator) (x : object) : result object :=
  match o_linear o, x with
  | true, Vec _ v => Ok (Vec Array (o_direct o v))
  | _, _ =>
      match o_linear o, as_constant x with
      | false, Some v => Ok (fresh (multiply_constant v o))
      | _, _ =>
          y <- as_operator x ;;
          if negb (o_linear o) || negb (o_linear y) then Ok (fresh (multiplication o y))
          else
            match id, x with
            | Some i, Op (Some j) _ => if o_idempotent o && Nat.eqb i j then Ok (Op id o) else Ok (fresh (composition o y))
            | _, _ => Ok (fresh (composition o y))
            end
      end
  end.
(** __rmul__ 1501-1515 *)
Definition rmul_op (o : operator) (x : object) : result object :=
  match o_linear o, x with
  | true, Vec _ v => Ok (Vec Array (o_transpose o v))
  | _, _ =>
      match o_linear o, as_constant x with
      | false, Some v => Ok (fresh (multiply_constant v o))
      | _, _ =>
          y <- as_operator x ;;
          if negb (o_linear o) || negb (o_linear y) then Ok (fresh (multiplication y o)) else Ok (fresh (composition y o))
      end
  end.
(** __neg__ 1544-1545, ZeroOperator.__neg__ 4565-4566 *)
Definition neg (id : option nat) (o : operator) : result object :=
  if o_zero o then Ok (Op id o) else mul None (homothety (ropp r1)) (Op id o).
(** The unary minus of an object *)
Definition neg_object (x : object) : result object :=
  match x with
  | Op id o => neg id o
  | Num a => Ok (Num (ropp a))
  | Vec Array v => Ok (Vec Array (mapmx ropp v))
  | Mat M => Ok (Mat (mapmx ropp M))
  | Objects _ => not_modelled
  | _ => Raise TypeError
  end.
(** __add__ and __radd__ 1532-1536, __sub__ and __rsub__ 1538-1542 *)
Definition add (o : operator) (x : object) : result object := y <- as_operator x ;; Ok (fresh (addition o y)).
Definition radd_op (o : operator) (x : object) : result object := y <- as_operator x ;; Ok (fresh (addition y o)).
Definition sub (o : operator) (x : object) : result object := y <- neg_object x ;; add o y.
Definition rsub_op (id : option nat) (o : operator) (x : object) : result object :=
  m <- neg id o ;; match m with Op _ m => radd_op m x | _ => not_modelled end.
(** PowerOperator(-1)(y) for an operator: the composition of ReciprocalOperator and y.  The reciprocal of a ZeroOperator, which may be a
    constant operator, is not modelled. *)
Definition reciprocal (y : operator) : result operator :=
  if o_zero y then not_modelled else Ok (nonlinear (fun x => mapmx recip (o_direct y x))).
(** __truediv__ 1470-1471 and __rtruediv__ 1475-1476: PowerOperator(-1) is called, with a callable it is a composition *)
Definition div (o : operator) (x : object) : result object :=
  match x with
  | Num a => Ok (fresh (multiply_constant (vfill (recip a)) o))
  | Vec _ v => Ok (fresh (multiply_constant (mapmx recip v) o))
  | Op _ _ | Fun _ | Scipy _ _ => y <- as_operator x ;; r <- reciprocal y ;; Ok (fresh (multiplication o r))
  | _ => not_modelled
  end.
Definition rdiv (o : operator) (x : object) : result object :=
  r <- reciprocal o ;;
  match as_constant x with
  | Some v => Ok (fresh (multiply_constant v r))
  | None => y <- as_operator x ;; Ok (fresh (multiplication y r))
  end.
(** __pow__ 1517-1530 for a positive or null integer; see C39.  For an operator that is not linear it is PowerOperator(k)(self), the
    composition of the power of the elements and the operator, which is the operator itself if k is 1 (nonlinear.py 301-304); if k is 0 it
    is a constant, which is not modelled. *)
Fixpoint element_power (k : nat) (a : K) : K := match k with 0 => r1 | S k => rmul a (element_power k a) end.
Definition identity : operator := Oper true true false (fun x => x) (fun x => x).
Definition pow (id : option nat) (o : operator) (k : nat) : result object :=
  if negb (o_linear o) then
    match k with
    | 0 => not_modelled
    | 1 => Ok (fresh o)
    | _ => Ok (fresh (nonlinear (fun x => mapmx (element_power k) (o_direct o x))))
    end
  else
    match k with
    | 0 => Ok (fresh identity)
    | 1 => Ok (Op id o)
    | S k => Ok (fresh (fold_right composition o (repeat o k)))
    end.

(** ** Python's binary operations.  An array on the left does not know operators, which do not define __array_priority__: numpy applies
    the operation to each element and makes an array of objects.  np.matrix does so for all operations but the product.  scipy's
    LinearOperator has operations of its own. *)
Inductive operation := Add | Sub | Mul | Div.
Definition method (p : operation) (id : option nat) (o : operator) (x : object) : result object :=
  match p with Add => add o x | Sub => sub o x | Mul => mul id o x | Div => div o x end.
Definition reflected (p : operation) (id : option nat) (o : operator) (x : object) : result object :=
  match p with Add => radd_op o x | Sub => rsub_op id o x | Mul => rmul_op o x | Div => rdiv o x end.
Definition number (p : operation) (a b : K) : K :=
  match p with Add => radd a b | Sub => rsub a b | Mul => rmul a b | Div => rmul a (recip b) end.
Definition binary (p : operation) (x y : object) : result object :=
  match x, y with
  | Op id o, _ => method p id o y
  | Vec Array v, Op id o => l <- rmap (fun a => reflected p id o (Num a)) (mx_list v) ;; Ok (Objects l)
  | Mat _, Op id o => match p with Mul => reflected p id o x | _ => not_modelled end
  | Scipy _ _, Op _ _ | Objects _, Op _ _ => not_modelled
  | _, Op id o => reflected p id o x
  (* no operator: numpy *)
  | Num a, Num b => Ok (Num (number p a b))
  | Num a, Vec Array v => Ok (Vec Array (vmap2 (number p) (vfill a) v))
  | Vec Array u, Num b => Ok (Vec Array (vmap2 (number p) u (vfill b)))
  | Vec Array u, Vec _ v | Vec ListOrTuple u, Vec Array v => Ok (Vec Array (vmap2 (number p) u v))
  | _, _ => not_modelled
  end.

(** ** Expressions: variables, literals and operations *)
Inductive expr := Var (i : nat) | Lit (x : object) | Neg (e : expr) | Bin (p : operation) (e e' : expr) | Pow (e : expr) (k : nat).
Context (variables : nat -> operator).
Fixpoint eval (e : expr) : result object :=
  match e with
  | Var i => Ok (Op (Some i) (variables i))
  | Lit x => Ok x
  | Neg e => x <- eval e ;; neg_object x
  | Bin p e e' => x <- eval e ;; y <- eval e' ;; binary p x y
  | Pow e k => x <- eval e ;; match x with Op id o => pow id o k | _ => not_modelled end
  end.
End Model.
Arguments operator : clear implicits. Arguments object : clear implicits. Arguments expr : clear implicits.
Arguments Oper {K n}. Arguments o_linear {K n}. Arguments o_idempotent {K n}. Arguments o_zero {K n}. Arguments o_direct {K n}. Arguments o_transpose {K n}.
Arguments Num {K n}. Arguments Vec {K n}. Arguments Mat {K n}. Arguments Fun {K n}. Arguments Scipy {K n}. Arguments Op {K n}. Arguments Objects {K n}. Arguments Other {K n}.
Arguments Var {K n}. Arguments Lit {K n}. Arguments Neg {K n}. Arguments Bin {K n}. Arguments Pow {K n}.
Arguments vmap2 {K n}. Arguments vfill {K n}. Arguments vhad {K n}. Arguments all_zero {K n}. Arguments zero_op {K n}. Arguments diagonal {K n}. Arguments homothety {K n}.
Arguments dense {K n}. Arguments nonlinear {K n}. Arguments addition {K n}. Arguments composition {K n}. Arguments multiplication {K n}. Arguments multiply_constant {K n}.
Arguments as_operator {K n}. Arguments as_constant {K n}. Arguments fresh {K n}. Arguments mul {K n}. Arguments rmul_op {K n}. Arguments neg {K n}. Arguments neg_object {K n}.
Arguments add {K n}. Arguments radd_op {K n}. Arguments sub {K n}. Arguments rsub_op {K n}. Arguments reciprocal {K n}. Arguments div {K n}. Arguments rdiv {K n}.
Arguments identity {K n}. Arguments pow {K n}. Arguments method {K n}. Arguments reflected {K n}. Arguments number {K}. Arguments binary {K n}. Arguments eval {K n}.
