(** The memory footprint of operators: the property nbytes (core.py 278-284, 1728-1732 and 4011-4013; linear.py 199-201, 1443-1447, 1562-1564, 1651-1653, 1810-1812, 1905-1907;
    nonlinear.py 274-276, 336-338, 568-570, 610-612, 681-687, 803-805, 845-847) and the exceptions of delete (core.py 250-276). *)
From Coq Require Import List Arith Bool.
From Verif Require Import Base.
Import ListNotations.

(** Arrays are named by numbers; [size] gives their numbers of bytes. *)
Definition array := nat.
(** An operator: its name (two operators have the same name iff they are the same object, id in Python) and what it holds: the arrays that its nbytes looks at (none
    for most classes), the exponent of a PowerOperator, a Python number or a scalar of numpy with its size, or the operands of a composite.  SparseOperator (linear.py 524-542)
    is an operator with the arrays of its matrix; formats that are not made of arrays (lil, dok) are left out. *)
Inductive exponent := PythonNumber | NumpyScalar (bytes : nat).
Inductive operator := Op (id : nat) (c : content)
with content := Arrays (l : list array) | Power (n : exponent) | Composite (operands : list operator).
Definition id_of (o : operator) : nat := match o with Op i _ => i end.

(** d = {id(_): _ for _ in self.operands}, 1730: the last operand of each name; the order of set(d.keys()) does not matter for the sum *)
Fixpoint unique (l : list operator) : list operator :=
  match l with [] => [] | o :: l => if existsb (fun p => Nat.eqb (id_of o) (id_of p)) l then unique l else o :: unique l end.
Fixpoint total (l : list nat) : nat := match l with [] => 0 | n :: l => n + total l end.
Fixpoint mapM {A B} (f : A -> result B) (l : list A) : result (list B) :=
  match l with [] => Ok [] | x :: l => y <- f x ;; r <- mapM f l ;; Ok (y :: r) end.
Section Size.
Variable size : array -> nat.
(** [fuel] bounds the depth of the composites. *)
Fixpoint nbytes (fuel : nat) (o : operator) : result nat :=
  match fuel, o with
  | O, _ => Raise (OtherError 0)
  | _, Op _ (Arrays l) => Ok (total (map size l))
  | _, Op _ (Power PythonNumber) => Raise AttributeError (* nonlinear.py 338: int and float have no attribute nbytes *)
  | _, Op _ (Power (NumpyScalar b)) => Ok b
  | S f, Op _ (Composite l) => r <- mapM (nbytes f) (unique l) ;; Ok (total r)
  end.
(** Operator.delete, core.py 272-276, for the operators of a group: nbytes comes first; the result is the operators that are deleted and the exception, if any *)
Fixpoint delete (fuel : nat) (group : list operator) : list nat * option exn :=
  match group with
  | [] => ([], None)
  | o :: group => match nbytes fuel o with Raise e => ([], Some e) | Ok _ => let '(d, e) := delete fuel group in (id_of o :: d, e) end
  end.
End Size.
