(** What expressions with variables mean: a variable is a column, its transpose a row, an operator a square matrix. *)
From Verif Require Import Base Algebra Matrix VarModel.

Section Spec.
Context {K : cring} {n : nat}.

(** Scalars, matrices with one element, columns, rows and square matrices *)
Inductive value := Sc (a : K) | One (M : mx K 1 1) | Col (M : mx K n 1) | Row (M : mx K 1 n) | Sq (M : mx K n n).
Definition scale (a : K) (v : value) : value :=
  match v with
  | Sc b => Sc (rmul a b) | One M => One (mapmx (rmul a) M) | Col M => Col (mapmx (rmul a) M)
  | Row M => Row (mapmx (rmul a) M) | Sq M => Sq (mapmx (rmul a) M)
  end.
Definition times (v w : value) : option value :=
  match v, w with
  | Sc a, _ => Some (scale a w)
  | _, Sc a => Some (scale a v)
  | One M, One N => Some (One (mulmx M N))
  | One M, Row N => Some (Row (mulmx M N))
  | Col M, One N => Some (Col (mulmx M N))
  | Col M, Row N => Some (Sq (mulmx M N))
  | Row M, Col N => Some (One (mulmx M N))
  | Row M, Sq N => Some (Row (mulmx M N))
  | Sq M, Col N => Some (Col (mulmx M N))
  | Sq M, Sq N => Some (Sq (mulmx M N))
  | _, _ => None
  end.
(** A number that is added to a matrix is a multiple of the identity. *)
Definition plus (v w : value) : option value :=
  match v, w with
  | Sc a, Sc b => Some (Sc (radd a b))
  | One M, One N => Some (One (addmx M N))
  | Col M, Col N => Some (Col (addmx M N))
  | Row M, Row N => Some (Row (addmx M N))
  | Sq M, Sq N => Some (Sq (addmx M N))
  | Sq M, Sc a => Some (Sq (addmx M (scalarmx n a)))
  | Sc a, Sq M => Some (Sq (addmx (scalarmx n a) M))
  | _, _ => None
  end.
Definition transposed (v : value) : value :=
  match v with Sc a => Sc a | One M => One (trmx M) | Col M => Row (trmx M) | Row M => Col (trmx M) | Sq M => Sq (trmx M) end.

Definition bind2 (f : value -> value -> option value) (v w : option value) : option value :=
  match v, w with Some v, Some w => f v w | _, _ => None end.

(** The meaning of an expression for the values [x] of the variables: none if the dimensions do not match. *)
Fixpoint meaning (x : nat -> mx K n 1) (e : expr K n) : option value :=
  match e with
  | EVar i => Some (Col (x i))
  | ENum a | EHom a => Some (Sc a)
  | ELin A _ => Some (Sq A)
  | ENonLinear => None
  | ET e => option_map transposed (meaning x e)
  | ENeg e => option_map (scale (ropp r1)) (meaning x e)
  | EMul e e' => bind2 times (meaning x e) (meaning x e')
  | EAdd e e' => bind2 plus (meaning x e) (meaning x e')
  | ESub e e' => bind2 plus (meaning x e) (option_map (scale (ropp r1)) (meaning x e'))
  end.

(** The value of the result *)
Fixpoint value1 (x : nat -> mx K n 1) (a : atom K n) : option value :=
  match a with
  | Var i => Some (Col (x i))
  | VarT i => Some (Row (trmx (x i)))
  | Hom a => Some (Sc a)
  | Id => Some (Sc r1)
  | Lin A _ => Some (Sq A)
  | Sum p q =>
      let go := fix go l := match l with [] => Some (Sc r1) | b :: l => bind2 times (value1 x b) (go l) end in
      bind2 plus (go p) (go q)
  end.
Definition product (x : nat -> mx K n 1) (l : list (atom K n)) : option value :=
  fold_right (fun a v => bind2 times (value1 x a) v) (Some (Sc r1)) l.

(** Expressions without sum *)
Fixpoint no_sum (e : expr K n) : Prop :=
  match e with
  | EVar _ | ENum _ | EHom _ | ELin _ _ | ENonLinear => True
  | ET e | ENeg e => no_sum e
  | EMul e e' => no_sum e /\ no_sum e'
  | EAdd _ _ | ESub _ _ => False
  end.

(** The operands that are not scalars *)
Definition not_scalar (a : atom K n) : bool := match a with Hom _ | Id => false | _ => true end.
(** An optional transposed variable, linear operators, an optional variable *)
Definition well_formed (l : list (atom K n)) : Prop :=
  exists row ops col, l = row ++ map (fun A => Lin (fst A) (snd A)) ops ++ col /\
    (row = [] \/ exists i, row = [VarT i]) /\ (col = [] \/ exists i, col = [Var i]).
Definition starts_with_row (l : list (atom K n)) : Prop := exists i l', l = VarT i :: l'.
Definition is_sum (a : atom K n) : Prop := exists p q, a = Sum p q.

(** The linear operators of a list, applied one after the other: A1 * (A2 * ... * e) *)
Definition chain (l : list (mx K n n * bool)) (e : expr K n) : expr K n := fold_right (fun A e => EMul (ELin (fst A) (snd A)) e) e l.
End Spec.
Arguments value : clear implicits.
