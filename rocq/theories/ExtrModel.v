(** Products, minima and maxima along an axis: ReductionOperator (core.py 4569-4655), ProductOperator, MaxOperator, MinOperator and
    MinMaxOperator (nonlinear.py 379-530), SumOperator (linear.py 1297-1329).  numpy is older than version 2. *)
From Verif Require Import Base BlockModel DiagModel RedModel.

Section Model.
(** The numbers that are not NaN; NaN is None.  Data types and rounding are left out. *)
Context {A : Type}.
Definition num := option A.

(** ** numpy *)
(** A reduction: the result for the list of the elements, whether there is one without elements *)
Record reducer := { r_fun : list num -> num; r_identity : bool }.
(** [choose b x y]: one of the two numbers; NaN if one of them is (np.maximum, np.minimum) *)
Definition choose (better : A -> A -> bool) (x y : num) : num :=
  match x, y with Some a, Some b => Some (if better b a then b else a) | _, _ => None end.
(** NaN if both are (np.fmax, np.fmin) *)
Definition fchoose (better : A -> A -> bool) (x y : num) : num :=
  match x, y with Some a, Some b => Some (if better b a then b else a) | Some a, None => Some a | None, y => y end.
Definition fold1 (f : num -> num -> num) (l : list num) : num := match l with [] => None | x :: l => fold_left f l x end.
(** np.max and np.min; np.nanmax and np.nanmin, which also warn when all the elements are NaN *)
Definition extremum (better : A -> A -> bool) (skipna : bool) : reducer :=
  {| r_fun := fold1 (if skipna then fchoose better else choose better); r_identity := false |}.
(** The reduce method of the ufunc of an operation with an identity, such as np.multiply and np.add: NaN propagates. *)
Definition ufunc_reduce (op : A -> A -> A) (one : A) : reducer :=
  {| r_fun := fun l => fold_left (fun x y => match x, y with Some a, Some b => Some (op a b) | _, _ => None end) l (Some one); r_identity := true |}.
(** np.nansum: NaN counts for zero. *)
Definition nan_reduce (op : A -> A -> A) (one : A) : reducer :=
  {| r_fun := fun l => Some (fold_left (fun a y => match y with Some b => op a b | None => a end) l one); r_identity := true |}.

(** func(x, axis=axis): ValueError when there is nothing to reduce, no identity, and the result has elements *)
Definition np_reduce (f : reducer) (axis : option Z) (x : array num) : result (array num) :=
  y <- match axis with
       | None => Ok (Arr [] (fun _ => r_fun f (ravel x)))
       | Some z =>
           a <- axis_of z (length (ashape x)) ;;
           Ok (Arr (firstn a (ashape x) ++ skipn (S a) (ashape x))
                   (fun idx => r_fun f (map (fun i => aval x (firstn a idx ++ i :: skipn a idx)) (seq 0 (nth a (ashape x) 0)))))
       end ;;
  if Nat.eqb (prod (ashape x)) 0 && negb (Nat.eqb (prod (ashape y)) 0) && negb (r_identity f) then Raise ValueError else Ok y.

(** ** ReductionOperator *)
(** The argument func, 4600-4632: a ufunc with its numbers of inputs and outputs, a Python function that has or not an argument axis,
    another object *)
Inductive func := Ufunc (nin nout : nat) (f : reducer) | Function (has_axis : bool) (f : reducer) | Other.
(** __init__, 4596-4634.  For other objects the name direct is not bound: UnboundLocalError *)
Definition UnboundLocalError := OtherError 1.
Definition construct (g : func) : result reducer :=
  match g with
  | Ufunc nin nout f => if negb (Nat.eqb nin 2) then Raise TypeError else if negb (Nat.eqb nout 1) then Raise TypeError else Ok f
  | Function has_axis f => if has_axis then Ok f else Raise TypeError
  | Other => Raise UnboundLocalError
  end.
(** The call: validatein, reshapein and direct.  Without axis, the shape of the output is (). *)
Definition reduction_call (f : reducer) (axis : option Z) (x : array num) : result (array num) :=
  _ <- red_validatein axis (ashape x) ;;
  y <- np_reduce f axis x ;;
  let shapeout := match axis with None => [] | Some z => red_reshapein z (ashape x) end in
  if shape_eqb (ashape y) shapeout then Ok y else Raise ValueError.

(** ** The operators.  [leb] is the order of the numbers. *)
Context (leb : A -> A -> bool).
(** nonlinear.py 438-446 *)
Definition max_call (skipna : bool) := reduction_call (extremum (fun b a => leb a b) skipna).
(** 477-485 *)
Definition min_call (skipna : bool) := reduction_call (extremum (fun b a => leb b a) skipna).
(** 405-408: skipna is passed on, but only used with numpy 2 *)
Definition product_call (mul : A -> A -> A) (one : A) (skipna : bool) := reduction_call (ufunc_reduce mul one).
(** linear.py 1319-1326 *)
Definition sum_call (add : A -> A -> A) (zero : A) (skipna : bool) :=
  reduction_call (if skipna then nan_reduce add zero else ufunc_reduce add zero).
(** MinMaxOperator, 518-525: the block column of both operators along a new axis (BlockColumnOperator.direct 3786-3802), given the array
    [out] for the result.  The blocks are those of BlockModel; a block that raises is not modelled. *)
Definition total (r : result (array num)) : array num := match r with Ok y => y | Raise _ => Arr [] (fun _ => None) end.
Definition reduction_block (call : array num -> result (array num)) (axis : option Z) : blk num :=
  {| k_fun := fun x => total (call x); k_reshapein := fun s => match axis with None => [] | Some z => red_reshapein z s end |}.
Definition minmax_direct (axis : option Z) (skipna : bool) (new_axisout : Z) (x out : array num) : result (array num) :=
  column_direct [reduction_block (min_call skipna axis) axis; reduction_block (max_call skipna axis) axis] [Some 1; Some 1]
    (NewAxis new_axisout) x out.
End Model.
Arguments num : clear implicits.
Arguments reducer : clear implicits.
