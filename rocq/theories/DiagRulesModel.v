(** Combining diagonal and constant operators: core.py 4018-4036, 4137-4205, 4429-4566. *)
From Verif Require Import Base Algebra SeqModel BlockModel BlockSpec DiagModel.

Section Rules.
Context {K : dring}.

(** ** Data *)

(** The result of get_data(): that of a MaskOperator (linear.py 834-835) is an array of booleans. *)
Inductive gdata := Bools (a : array bool) | Nums (a : array K).
Definition get_data (op : diag K) : option (gdata * bcast) :=
  match d_class op with
  | Zero => None (* a ConstantOperator *)
  | Identity => Some (Nums (scalar r1), Scalar)
  | Homothety c => Some (Nums (scalar c), Scalar)
  | Mask m b => Some (Bools (Arr (ashape m) (fun idx => negb (aval m idx))), b)
  | Diagonal data b => Some (Nums data, b)
  end.
Definition number (b : bool) : K := if b then r1 else r0.
Definition nums (d : gdata) : array K :=
  match d with Nums a => a | Bools a => Arr (ashape a) (fun idx => number (aval a idx)) end.
Definition gtranspose (d : gdata) : gdata := match d with Nums a => Nums (transpose a) | Bools a => Bools (transpose a) end.
(** np.add and np.multiply: the logical or and and for booleans. *)
Definition gufunc (f : K -> K -> K) (fb : bool -> bool -> bool) (d1 d2 : gdata) : result gdata :=
  match d1, d2 with
  | Bools a1, Bools a2 => a <- ufunc2 fb a1 a2 ;; Ok (Bools a)
  | _, _ => a <- ufunc2 f (nums d1) (nums d2) ;; Ok (Nums a)
  end.

(** ** BroadcastingBase._rule_broadcast, 4018-4036 *)
Definition is_left (b : bcast) := match b with Leftward => true | _ => false end.
Definition is_right (b : bcast) := match b with Rightward => true | _ => false end.
Definition is_disabled (b : bcast) := match b with Disabled => true | _ => false end.
Definition common (b1 b2 : bcast) : option bcast :=
  if (is_left b1 || is_left b2) && (is_right b1 || is_right b2) then None
  else if is_disabled b1 || is_disabled b2 then Some Disabled
  else if is_left b1 || is_left b2 then Some Leftward
  else if is_right b1 || is_right b2 then Some Rightward
  else Some Scalar.
(** None: the rule does not apply. *)
Definition rule_broadcast (f : K -> K -> K) (fb : bool -> bool -> bool) (x1 x2 : gdata * bcast) : option (result (gdata * bcast)) :=
  let '(d1, b1) := x1 in
  let '(d2, b2) := x2 in
  match common b1 b2 with
  | None => None
  | Some b =>
      Some (d <- (if is_right b1 || is_right b2 then d <- gufunc f fb (gtranspose d1) (gtranspose d2) ;; Ok (gtranspose d)
                  else gufunc f fb d1 d2) ;;
            Ok (d, b))
  end.

(** DiagonalOperator of the result; of booleans, it counts the same values as of zeros and ones. *)
Definition to_diag (r : option (result (gdata * bcast))) : option (result (diag K)) :=
  option_map (fun r => db <- r ;; Ok (diagonal (nums (fst db)) (snd db))) r.
(** The rules of DiagonalBase for products and sums of operators, 4164-4169 and 4180-4184 *)
Definition compose_rule (op1 op2 : diag K) : option (result (diag K)) :=
  match get_data op1, get_data op2 with Some x1, Some x2 => to_diag (rule_broadcast rmul andb x1 x2) | _, _ => None end.
Definition sum_rule (op1 op2 : diag K) : option (result (diag K)) :=
  match get_data op1, get_data op2 with Some x1, Some x2 => to_diag (rule_broadcast radd orb x1 x2) | _, _ => None end.

(** DiagonalBase._rule_multiply, 4186-4205: the data and the broadcast mode of the ConstantOperator by which the square of
    the input is multiplied.  b is a string when it is tested for 'rightward'. *)
Definition multiply_rule (op1 op2 : diag K) : option (result (gdata * bcast)) :=
  match get_data op1, get_data op2 with
  | Some (d1, b1), Some (d2, b2) =>
      match common b1 b2 with
      | None => None
      | Some b =>
          Some (d <- (if is_right b then d <- gufunc rmul andb (gtranspose d1) (gtranspose d2) ;; Ok (gtranspose d)
                      else gufunc rmul andb d1 d2) ;;
                Ok (d, b))
      end
  | _, _ => None
  end.

(** ** ConstantOperator *)
Inductive cclass := CZero | CData (data : array K) (b : bcast).
Record constop := C { c_class : cclass; c_shape : option (list nat) }.

(** ConstantOperator.__init__, 4436-4455, and BroadcastingBase.__init__: equal values are replaced by a scalar. *)
Definition constant_scalar (c : K) (shape : option (list nat)) : constop :=
  if deq c r0 then C CZero shape else C (CData (scalar c) Scalar) shape.
Definition constant (data : array K) (b : bcast) : result constop :=
  let shape := match b with Disabled => Some (ashape data) | _ => None end in
  match ashape data with
  | [] => Ok (constant_scalar (aval data []) shape)
  | _ =>
      match ravel data with
      | [] => Raise IndexError
      | c :: _ => if forallb (fun x => deq x c) (ravel data) then Ok (constant_scalar c shape) else Ok (C (CData data b) shape)
      end
  end.
(** ConstantOperator.direct, 4476-4480, ZeroOperator.direct, 4548-4549: the output is an array of shape [out] *)
Definition constant_apply (op : constop) (out : list nat) : result (array K) :=
  _ <- match c_shape op with Some s => if shape_eqb s out then Ok tt else Raise ValueError | None => Ok tt end ;;
  match c_class op with
  | CZero => assign (scalar r0) out
  | CData data Rightward => r <- assign (transpose data) (rev out) ;; Ok (transpose r)
  | CData data _ => assign data out
  end.
Definition cdata (op : constop) : gdata * bcast :=
  match c_class op with CZero => (Nums (scalar r0), Scalar) | CData data b => (Nums data, b) end.

(** The rules for the sum and the element-wise product of constants, 4464-4473 (a ZeroOperator has others), and for the
    element-wise product of a diagonal operator by a constant, 4170-4174 *)
Definition constant_rule (f : K -> K -> K) (op1 op2 : constop) : option (result constop) :=
  option_map (fun r => db <- r ;; constant (nums (fst db)) (snd db)) (rule_broadcast f andb (cdata op1) (cdata op2)).
Definition diag_constant_rule (op1 : diag K) (op2 : constop) : option (result (diag K)) :=
  match get_data op1 with Some x1 => to_diag (rule_broadcast rmul andb x1 (cdata op2)) | None => None end.
(** ConstantOperator._rule_mul, 4501-4505: the DiagonalOperator that is composed with the other operand *)
Definition constant_mul_rule (op : constop) : diag K := let '(d, b) := cdata op in diagonal (nums d) b.
End Rules.
Arguments gdata : clear implicits.
Arguments constop : clear implicits.

(** ** BroadcastingBase._as_strided, 4137-4152.  The address of an element is counted in bytes; [size] is the item size.
    The strides of the array itself are not looked at. *)
Fixpoint contiguous_strides (size : Z) (shape : list nat) : list Z * Z :=
  match shape with
  | [] => ([], size)
  | s :: shape' =>
      let '(strides, v) := contiguous_strides size shape' in
      if Nat.eqb s 1 then (0%Z :: strides, v) else (v :: strides, (v * Z.of_nat s)%Z)
  end.
Definition as_strided (x : strided) (size : Z) (b : bcast) (shape : list nat) : strided :=
  let strides := fst (contiguous_strides size (st_shape x)) in
  let zeros := repeat 0%Z (length shape - length (st_shape x)) in
  {| st_base := st_base x; st_shape := shape;
     st_strides := match b with Rightward => strides ++ zeros | _ => zeros ++ strides end |}.
