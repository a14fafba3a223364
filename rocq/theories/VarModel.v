(** Expressions with variables: core.py, Variable (4658-4708), VariableTranspose (4711-4757), the special methods of Operator
    (1480-1545), CompositionOperator (2277-2490) and the loop of the rules (2182-2265). *)
From Verif Require Import Base Algebra Matrix.

(** What is not modelled *)
Definition not_modelled {A} : result A := Raise (OtherError 0).

Section Model.
(** [n] is the number of elements of the variables; [eqb] compares scalars. *)
Context {K : cring} {n : nat} (eqb : K -> K -> bool).

(** The operands of a composition.  [Lin A takes] is a linear operator with the matrix A; if [takes] is true it has a rule for
    ('.', HomothetyOperator) that gives its multiple, as DenseOperator has.  The other rules of these operators keep what is computed
    (C10) and are left out.  [Sum p q] is AdditionOperator([p, q]), where p and q are the operands of a composition or a single
    operator; the sums in a sum are not flattened here. *)
Inductive atom :=
| Var (name : nat) | VarT (name : nat) | Hom (a : K) | Id | Lin (A : mx K n n) (takes : bool) | Sum (p q : list atom).

(** HomothetyOperator(a), 4243-4279 and 4355-4366: IdentityOperator if a is 1.  A zero, which gives a ZeroOperator, is not modelled. *)
Definition homothety (a : K) : result atom :=
  if eqb a r0 then not_modelled else if eqb a r1 then Ok Id else Ok (Hom a).

(** ** CompositionOperator *)
(** The first rule that applies to two neighbours, in the order of key_rule (2216-2224): the rules of the longest method resolution order
    first.  IdentityOperator 4406-4407 (7 classes), two homotheties (DiagonalBase), Variable 4671 and VariableTranspose 4723 (3 classes). *)
Definition pair_rule (a b : atom) : result (option atom) :=
  match a, b with
  | Id, _ => Ok (Some b)
  | _, Id => Ok (Some a)
  | Hom x, Hom y => h <- homothety (rmul x y) ;; Ok (Some h)
  | Var _, _ => Raise TypeError
  | _, VarT _ => Raise ValueError
  | _, _ => Ok None
  end.
(** The loop 2209-2262, which goes from the right to the left: [push a l] is what becomes of the operands a :: l, when the pairs of l
    have been seen.  A merged pair is looked at again with the operand that follows. *)
Fixpoint push (a : atom) (l : list atom) : result (list atom) :=
  match l with
  | [] => Ok [a]
  | b :: l' => r <- pair_rule a b ;; match r with None => Ok (a :: l) | Some c => push c l' end
  end.
Fixpoint loop (l : list atom) : result (list atom) :=
  match l with [] => Ok [] | a :: l => l' <- loop l ;; push a l' end.

(** _apply_rule_homothety_linear, 2451-2490: the product of the scalars, the operands without them *)
Fixpoint scalars (l : list atom) : K :=
  match l with [] => r1 | Hom a :: l => rmul a (scalars l) | _ :: l => scalars l end.
Definition erase (a : atom) : atom := match a with Hom _ => Id | _ => a end.
(** The first operator with a rule for ('.', HomothetyOperator), 2470-2486 *)
Fixpoint absorb (a : K) (l : list atom) : option (list atom) :=
  match l with
  | [] => None
  | Lin A true :: l => Some (Lin (mapmx (rmul a) A) true :: l)
  | b :: l => match absorb a l with Some l' => Some (b :: l') | None => None end
  end.
Definition gather (l : list atom) : result (list atom) :=
  if eqb (scalars l) r1 then Ok (map erase l)
  else
    h <- homothety (scalars l) ;;
    match absorb (scalars l) (map erase l) with Some l' => Ok l' | None => Ok (h :: map erase l) end.
(** CompositionOperator(operands), 2287-2295 and 2429-2433.  The operands that are themselves compositions, which the rules 2315-2327
    merge, are flattened first here.  Everything is linear: there is one group (2440-2449). *)
Definition compose (l : list atom) : result (list atom) :=
  match l with [] | [_] => Ok l | _ => l' <- gather l ;; loop l' end.

(** ** Objects *)
(** Python numbers; linear operators, given by the operands of their composition or by one operand that is not a composition; operators
    that are not linear *)
Inductive object := Num (a : K) | Op (l : list atom) | NonLinear.

(** The transpose of an operand: 4670, 4722, the rule of AdditionOperator 2020 and the one of CompositionOperator 2298-2300 *)
Fixpoint transpose1 (a : atom) : result atom :=
  match a with
  | Var x => Ok (VarT x)
  | VarT x => Ok (Var x)
  | Hom _ | Id => Ok a
  | Lin A takes => Ok (Lin (trmx A) takes)
  | Sum p q =>
      let go := fix go (l : list atom) : result (list atom) :=
        match l with [] => Ok [] | b :: l => b' <- transpose1 b ;; l' <- go l ;; Ok (b' :: l') end in
      p1 <- go p ;; p2 <- compose (rev p1) ;; q1 <- go q ;; q2 <- compose (rev q1) ;; Ok (Sum p2 q2)
  end.
Definition transpose (o : object) : result object :=
  match o with
  | Num _ => Raise AttributeError
  | Op l => l1 <- rmap transpose1 l ;; l2 <- compose (rev l1) ;; Ok (Op l2)
  | NonLinear => not_modelled
  end.

Definition composition (l : list atom) : result object := l' <- compose l ;; Ok (Op l').
(** isinstance(other, HomothetyOperator) *)
Definition is_homothety (l : list atom) : bool := match l with [Hom _] | [Id] => true | _ => false end.

(** Variable.__mul__ 4677-4693.  The Hadamard product of a variable and another operator is not linear. *)
Definition var_mul (x : nat) (other : object) : result object :=
  match other with
  | Op [Var _] => Ok NonLinear
  | Op [VarT y] => composition [Var x; VarT y]
  | Num a => h <- homothety a ;; composition [h; Var x]
  | Op l => if is_homothety l then composition (l ++ [Var x]) else Ok NonLinear
  | NonLinear => Ok NonLinear
  end.
(** Variable.__rmul__ 4695-4702 *)
Definition var_rmul (x : nat) (other : object) : result object :=
  match other with
  | Num a => h <- homothety a ;; composition [h; Var x]
  | Op l => composition (l ++ [Var x])
  | NonLinear => Ok NonLinear
  end.
(** VariableTranspose.__mul__ 4730-4748 *)
Definition vart_mul (x : nat) (other : object) : result object :=
  match other with
  | Op [VarT _] => Raise TypeError
  | Op [Var y] => composition [VarT x; Var y]
  | Num a => h <- homothety a ;; composition [h; VarT x]
  | Op l => if is_homothety l then composition (l ++ [VarT x]) else composition (VarT x :: l)
  | NonLinear => Raise TypeError
  end.
(** VariableTranspose.__rmul__ 4750-4753 *)
Definition vart_rmul (x : nat) (other : object) : result object :=
  match other with
  | Num a => h <- homothety a ;; composition [VarT x; h]
  | Op l => if is_homothety l then composition (VarT x :: l) else Raise TypeError
  | NonLinear => Raise TypeError
  end.

(** The product of two objects.  Operator.__mul__ 1480-1499, __rmul__ 1501-1515; 'A * A is A' for an idempotent operator, which computes
    the same, is left out. *)
Definition mul (o1 o2 : object) : result object :=
  match o1, o2 with
  | Num a, Num b => Ok (Num (rmul a b))
  | Op [Var x], _ => var_mul x o2
  | Op [VarT x], _ => vart_mul x o2
  | _, Op [Var y] => var_rmul y o1
  | _, Op [VarT y] => vart_rmul y o1
  | Num a, Op l => h <- homothety a ;; composition (h :: l)
  | Op l, Num a => h <- homothety a ;; composition (l ++ [h])
  | Op l, Op l' => composition (l ++ l')
  | Num a, NonLinear | NonLinear, Num a => if eqb a r0 then not_modelled else Ok NonLinear
  | _, _ => Ok NonLinear
  end.
(** __neg__ 1544-1545 *)
Definition neg (o : object) : result object :=
  match o with Num a => Ok (Num (ropp a)) | _ => h <- homothety (ropp r1) ;; mul (Op [h]) o end.
(** __add__ and __radd__ 1532-1536: AdditionOperator.  The sum of two homotheties is not modelled. *)
Definition as_operands (o : object) : result (option (list atom)) :=
  match o with Num a => h <- homothety a ;; Ok (Some [h]) | Op l => Ok (Some l) | NonLinear => Ok None end.
Definition add (o1 o2 : object) : result object :=
  match o1, o2 with
  | Num a, Num b => Ok (Num (radd a b))
  | _, _ =>
      p <- as_operands o1 ;; q <- as_operands o2 ;;
      match p, q with
      | Some p, Some q => if is_homothety p && is_homothety q then not_modelled else Ok (Op [Sum p q])
      | _, _ => Ok NonLinear
      end
  end.
(** __sub__ and __rsub__ 1538-1542 *)
Definition sub (o1 o2 : object) : result object :=
  match o1, o2 with Num a, Num b => Ok (Num (rsub a b)) | _, _ => m <- neg o2 ;; add o1 m end.

(** ** Expressions: a variable, a number, HomothetyOperator(a), a linear operator with the matrix A, an operator that is not linear *)
Inductive expr :=
| EVar (name : nat) | ENum (a : K) | EHom (a : K) | ELin (A : mx K n n) (takes : bool) | ENonLinear
| ET (e : expr) | ENeg (e : expr) | EMul (e e' : expr) | EAdd (e e' : expr) | ESub (e e' : expr).
Fixpoint eval (e : expr) : result object :=
  match e with
  | EVar x => Ok (Op [Var x])
  | ENum a => Ok (Num a)
  | EHom a => h <- homothety a ;; Ok (Op [h])
  | ELin A takes => Ok (Op [Lin A takes])
  | ENonLinear => Ok NonLinear
  | ET e => o <- eval e ;; transpose o
  | ENeg e => o <- eval e ;; neg o
  | EMul e e' => o <- eval e ;; o' <- eval e' ;; mul o o'
  | EAdd e e' => o <- eval e ;; o' <- eval e' ;; add o o'
  | ESub e e' => o <- eval e ;; o' <- eval e' ;; sub o o'
  end.
End Model.
Arguments Var {K n}. Arguments VarT {K n}. Arguments Hom {K n}. Arguments Id {K n}. Arguments NonLinear {K n}. Arguments Num {K n}.
Arguments EVar {K n}. Arguments ENum {K n}. Arguments EHom {K n}. Arguments ENonLinear {K n}.
Arguments atom : clear implicits. Arguments object : clear implicits. Arguments expr : clear implicits.
