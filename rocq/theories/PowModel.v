(** Powers of operators: /repo/src/pyoperators/core.py 1517-1530 and 4305-4308, linear.py 1891-1927, nonlinear.py 283-380. *)
From Coq Require Import QArith Qabs Qround.
From Verif Require Import Base Algebra Dft BlockModel BlockSpec DiagModel.
Local Open Scope nat_scope.

(** An exponent: a Python int or a float.  Floats are exact rational numbers here. *)
Inductive number := Int (z : Z) | Float (q : Q).
Definition value (n : number) : Q := match n with Int z => inject_Z z | Float q => q end.
(** np.allclose(a, b) *)
Definition allclose (a b : Q) : bool := Qle_bool (Qabs (a - b)) ((1#100000000) + (1#100000) * Qabs b).
(** np.round: to the nearest integer, to the even one if there are two *)
Definition np_round (q : Q) : Z :=
  let f := Qfloor q in
  match Qcompare (q - inject_Z f) (1#2) with
  | Lt => f
  | Gt => (f + 1)%Z
  | Eq => if Z.even f then f else (f + 1)%Z
  end.

(** ** Operator.__pow__, core.py 1517-1530, for a linear operator *)

(** What it returns: the identity, the operator, its inverse, or the product of copies of one of them. *)
Inductive power := One | Self | Inverse | Copies (k : nat) | InverseCopies (k : nat).
Definition linear_pow (n : number) : result power :=
  let q := value n in
  if negb (allclose q (inject_Z (np_round q))) then Raise ValueError
  else if Qeq_bool q (-1) then Ok Inverse
  else if Qeq_bool q 0 then Ok One
  else if Qeq_bool q 1 then Ok Self
  else match n with
    | Int z => if (0 <? z)%Z then Ok (Copies (Z.to_nat z)) else Ok (InverseCopies (Z.to_nat (- z)))
    | Float _ => Raise TypeError (* a list cannot be multiplied by a float *)
    end.

(** ** DiagonalOperator.__pow__, core.py 4305-4308, for an int exponent *)
Section Diagonal.
Context {K : dring} (inv : K -> K).
(** data ** n: numpy refuses to raise integers to negative powers.  The division by zero is left out. *)
Definition data_pow (integers : bool) (data : array K) (n : Z) : result (array K) :=
  if integers && (n <? 0)%Z then Raise ValueError
  else Ok (Arr (ashape data) (fun idx => if (0 <=? n)%Z then rpow (aval data idx) (Z.to_nat n) else rpow (inv (aval data idx)) (Z.to_nat (- n)))).
(** A power is another diagonal operator, or is given by the method of the class Operator. *)
Inductive diag_power := New (op : diag K) | Generic (p : power).
(** [integers]: the dtype of the data of the operator is an integer one *)
Definition diag_pow (integers : bool) (op : diag K) (n : Z) : result diag_power :=
  let generic := p <- linear_pow (Int n) ;; Ok (Generic p) in
  let new data b := d <- data_pow integers data n ;; Ok (New (diagonal d b)) in
  if ((n =? -1) || (n =? 0) || (n =? 1))%Z then generic
  else match d_class op with
    | Zero | Mask _ _ => generic (* these classes do not derive from DiagonalOperator *)
    | Identity => new (scalar r1) Scalar
    | Homothety c => new (scalar c) Scalar
    | Diagonal data b => new data b
    end.
End Diagonal.
Arguments diag_power : clear implicits.

(** ** EigendecompositionOperator, linear.py 1891-1900 and 1922-1927: the product V diag(w) V.T; v has n rows and k columns. *)
Section Eigen.
Context {K : cring} (inv : K -> K).
Definition eigen (k : nat) (v : nat -> nat -> K) (w : nat -> K) (i j : nat) : K := sum k (fun l => rmul (v i l) (rmul (w l) (v j l))).
(** the eigenvalues of op ** n, for numbers that are not integers *)
Definition eigen_pow (w : nat -> K) (n : Z) (l : nat) : K := if (0 <=? n)%Z then rpow (w l) (Z.to_nat n) else rpow (inv (w l)) (Z.to_nat (- n)).
End Eigen.

(** ** PowerOperator, nonlinear.py 283-380 *)

(** The class of the operator that is obtained; the last one is PowerOperator itself. *)
Inductive pclass := Reciprocal | ConstantOne | Sqrt | NoPower | Square | Power (n : Q).
(** PowerOperator.__init__, 290-312 *)
Definition power_operator (n : Q) : pclass :=
  if allclose n (-1) then Reciprocal
  else if Qeq_bool n 0 then ConstantOne
  else if allclose n (1#2) then Sqrt
  else if allclose n 1 then NoPower
  else if allclose n 2 then Square
  else Power n.
(** The attribute n of the classes that derive from PowerOperator *)
Definition exponent (p : pclass) : option Q :=
  match p with Reciprocal => Some (-1)%Q | Sqrt => Some (1#2)%Q | Square => Some 2%Q | Power n => Some n | ConstantOne | NoPower => None end.
(** The rules 'I', ('.', PowerOperator) in a composition and in a product, 314-325 *)
Definition power_inverse (p : pclass) : option pclass := option_map (fun n => power_operator (1 / n)) (exponent p).
Definition power_compose (s o : pclass) : option pclass := match exponent s, exponent o with Some a, Some b => Some (power_operator (a * b)) | _, _ => None end.
Definition power_multiply (s o : pclass) : option pclass := match exponent s, exponent o with Some a, Some b => Some (power_operator (a + b)) | _, _ => None end.
(** ('.', DiagonalBase) in a product, 326-335: the diagonal times this power *)
Definition power_diagonal (s : pclass) : option pclass := option_map (fun n => power_operator (n + 1)) (exponent s).
(** The functions of the classes; [pw n] is np.power(., n), [recip], [sqrt] and [square] are the functions of numpy. *)
Definition power_value {X : Type} (one : X) (recip sqrt square : X -> X) (pw : Q -> X -> X) (p : pclass) (x : X) : X :=
  match p with Reciprocal => recip x | ConstantOne => one | Sqrt => sqrt x | NoPower => x | Square => square x | Power n => pw n x end.
(** Operator.__pow__, core.py 1518-1519, for an operator that is not linear and computes [f] *)
Definition nonlinear_pow {X : Type} one recip sqrt square pw (f : X -> X) (n : Q) (x : X) : X := power_value one recip sqrt square pw (power_operator n) (f x).

(** ** Products s * o of powers and other operators, core.py 1480-1499.  A factor is an operator of the classes above, a linear operator or an
    operator that is neither; its data are one number, the operators apply to each element. *)
Inductive factor (X : Type) := Pow (p : pclass) | Linear (f : X -> X) | Nonlinear (f : X -> X).
Arguments Pow {X}. Arguments Linear {X}. Arguments Nonlinear {X}.
(** flags.linear: PowerOperator(1) is an IdentityOperator *)
Definition is_linear {X} (s : factor X) : bool := match s with Pow NoPower | Linear _ => true | _ => false end.
Section Star.
Context {X : Type} (one : X) (recip sqrt square : X -> X) (pw : Q -> X -> X) (mul : X -> X -> X).
Definition factor_value (s : factor X) : X -> X :=
  match s with Pow p => power_value one recip sqrt square pw p | Linear f | Nonlinear f => f end.
(** MultiplicationOperator([s, o]) with the rule of PowerOperator, or CompositionOperator([s, o]) if both are linear.  The rules for constants and
    diagonal operators are left out: they keep the values and are the subject of the other definitions of this file. *)
Definition star (s o : factor X) : factor X :=
  if is_linear s && is_linear o then Linear (fun x => factor_value s (factor_value o x))
  else match s, o with
       | Pow p, Pow q => match power_multiply p q with Some r => Pow r | None => Nonlinear (fun x => mul (factor_value s x) (factor_value o x)) end
       | _, _ => Nonlinear (fun x => mul (factor_value s x) (factor_value o x))
       end.
End Star.
