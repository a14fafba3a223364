(** Diagonal, homothety, identity, mask, constant and zero operators: core.py 3950-4036, 4137-4566, linear.py 786-835,
    utils/misc.py 524-559 and utils/cythonutils.pyx.  Numbers are elements of a commutative ring with decidable equality:
    rounding, NaN and the conversions between dtypes (in particular from long double to double in inspect_special_values)
    are left out. *)
From Verif Require Import Base Algebra BlockModel BlockSpec.

Record dring := { dcar :> cring; deq : dcar -> dcar -> bool; deq_ok : forall x y, deq x y = true <-> x = y }.
Arguments deq {_}.

(** 'leftward', 'rightward', 'disabled', 'scalar' *)
Inductive bcast := Leftward | Rightward | Disabled | Scalar.

(** ** numpy *)

(** a.T *)
Definition transpose {A} (a : array A) : array A := Arr (rev (ashape a)) (fun idx => aval a (rev idx)).
(** a.ravel() *)
Definition ravel {A} (a : array A) : list A := map (aval a) (indices (ashape a)).
(** Broadcast shapes, the last dimension first. *)
Fixpoint bc (a b : list nat) : result (list nat) :=
  match a, b with
  | [], _ => Ok b
  | _, [] => Ok a
  | n :: a', m :: b' =>
      d <- (if Nat.eqb n m then Ok n else if Nat.eqb n 1 then Ok m else if Nat.eqb m 1 then Ok n else Raise ValueError) ;;
      r <- bc a' b' ;;
      Ok (d :: r)
  end.
(** The element of an array of shape [s] that is used at the index [idx] of the result (last dimension first). *)
Fixpoint clip (s idx : list nat) : list nat :=
  match s, idx with n :: s', i :: idx' => (if Nat.eqb n 1 then 0 else i) :: clip s' idx' | _, _ => [] end.
Definition stretched {A} (a : array A) (idx : list nat) : A := aval a (rev (clip (rev (ashape a)) (rev idx))).
(** f(a, b) *)
Definition ufunc2 {A B C} (f : A -> B -> C) (a : array A) (b : array B) : result (array C) :=
  s <- bc (rev (ashape a)) (rev (ashape b)) ;;
  Ok (Arr (rev s) (fun idx => f (stretched a idx) (stretched b idx))).
(** f(a, b, out): the arguments are broadcast to the shape of out, which is not stretched. *)
Definition ufunc2_out {A B C} (f : A -> B -> C) (a : array A) (b : array B) (out : list nat) : result (array C) :=
  s <- bc (rev (ashape a)) (rev (ashape b)) ;;
  s' <- bc s (rev out) ;;
  if shape_eqb s' (rev out) then Ok (Arr out (fun idx => f (stretched a idx) (stretched b idx))) else Raise ValueError.
(** out[...] = a *)
Definition assign {A} (a : array A) (out : list nat) : result (array A) :=
  s <- bc (rev (ashape a)) (rev out) ;;
  if shape_eqb s (rev out) then Ok (Arr out (fun idx => stretched a idx)) else Raise ValueError.
Definition scalar {A} (c : A) : array A := Arr [] (fun _ => c).

Section Diag.
Context {K : dring}.

(** ** inspect_special_values *)

(** The loop of inspect_special_values_int64, _float64 and _complex128, cythonutils.pyx (the unsigned version has no -1). *)
Fixpoint inspect_loop (value0 : K) (v : list K) (nmones nzeros nones : nat) (other same : bool) : nat * nat * nat * bool * bool :=
  match v with
  | [] => if other then (0, 0, 0, true, true) else (nmones, nzeros, nones, false, same)
  | value :: v' =>
      let '(nmones, nzeros, nones, other) :=
        if deq value r0 then (nmones, S nzeros, nones, other)
        else if deq value r1 then (nmones, nzeros, S nones, other)
        else if deq value (ropp r1) then (S nmones, nzeros, nones, other)
        else (nmones, nzeros, nones, true) in
      let same := same && deq value value0 in
      if negb same && other then (0, 0, 0, true, false) else inspect_loop value0 v' nmones nzeros nones other same
  end.
Definition inspect (v : list K) : nat * nat * nat * bool * bool :=
  match v with [] => (0, 0, 0, false, false) | value0 :: _ => inspect_loop value0 v 0 0 0 false true end.
(** inspect_special_values_bool8 *)
Definition inspect_bool (v : list bool) : nat * nat * nat * bool * bool :=
  match v with
  | [] => (0, 0, 0, false, false)
  | _ =>
      let nzeros := length (filter negb v) in
      let n := length v in
      (0, nzeros, (n - nzeros), false, Nat.eqb nzeros 0 || Nat.eqb nzeros n)
  end.

(** ** The operators *)

(** The class and the attribute data.  [d_shape]: shapein, if it is explicit.  [d_inv]: the flag involutary. *)
Inductive dclass :=
| Zero
| Identity
| Homothety (c : K)
| Mask (mask : array bool) (b : bcast)
| Diagonal (data : array K) (b : bcast).
Record diag := D { d_class : dclass; d_shape : option (list nat); d_inv : bool }.

(** ZeroOperator(shapein=...), IdentityOperator(shapein=...) 4390-4414 (HomothetyOperator.__init__ then
    DiagonalOperator.__init__ with data = 1, which does not change the class). *)
Definition zero_op (shape : option (list nat)) : diag := D Zero shape false.
Definition identity_op (shape : option (list nat)) : diag := D Identity shape true.

(** HomothetyOperator.__init__ 4355-4364 for a scalar, then DiagonalOperator.__init__ *)
Definition homothety (c : K) (shape : option (list nat)) : diag :=
  let '(nmones, nzeros, nones, other, same) := inspect [c] in
  if Nat.eqb nzeros 1 then zero_op shape
  else if Nat.eqb nones 1 then identity_op shape
  else D (Homothety c) shape (Nat.eqb (nmones + nones) 1).
(** HomothetyOperator.__init__ for an array (the shortcut for arrays with null strides is left out) *)
Definition homothety_array (data : array K) (shape : option (list nat)) : result diag :=
  match ashape data with
  | [] => Ok (homothety (aval data []) shape)
  | _ =>
      match ravel data with
      | [] => Raise IndexError
      | c :: v => if existsb (fun x => negb (deq c x)) (c :: v) then Raise ValueError else Ok (homothety c shape)
      end
  end.

(** MaskOperator.__init__, linear.py 809-829 *)
Definition mask (m : array bool) (b : bcast) (shape : option (list nat)) : diag :=
  let shape := match b with Disabled => Some (ashape m) | _ => shape end in
  let '(nmones, nzeros, nones, other, same) := inspect_bool (ravel m) in
  let n := length (ravel m) in
  if Nat.eqb nzeros n then identity_op shape
  else if Nat.eqb nones n then zero_op shape
  else D (Mask m (match ashape m, b with [], Leftward | [], Rightward => Scalar | _, _ => b end)) shape false.

(** DiagonalOperator.__init__, core.py 4243-4279, and BroadcastingBase.__init__, 3971-3984 *)
Definition diagonal (data : array K) (b : bcast) : diag :=
  let shape := match b with Disabled => Some (ashape data) | _ => None end in
  let v := ravel data in
  let n := length v in
  let '(nmones, nzeros, nones, other, same) := inspect v in
  if Nat.eqb nzeros n then zero_op shape
  else if Nat.eqb nones n then identity_op shape
  else if same then match v with c :: _ => homothety c shape | [] => zero_op shape end
  else if Nat.eqb (nones + nzeros) n then mask (Arr (ashape data) (fun idx => deq (aval data idx) r0)) b shape
  else D (Diagonal data (match ashape data, b with [], Leftward | [], Rightward => Scalar | _, _ => b end)) shape
         (Nat.eqb (nmones + nones) n).
(** The default broadcast, 4245-4246 *)
Definition default_broadcast {A} (data : array A) : bcast := match ashape data with [] => Scalar | _ => Disabled end.

(** DiagonalOperator.validatein, 4310-4321 *)
Definition validatein (data : list nat) (b : bcast) (shape : list nat) : result unit :=
  let n := length data in
  if Nat.ltb (length shape) n then Raise ValueError
  else
    let it := match b with Rightward => combine (firstn n shape) data | _ => combine (skipn (length shape - n) shape) data end in
    if existsb (fun sd => negb (Nat.eqb (snd sd) 1) && negb (Nat.eqb (snd sd) (fst sd))) it then Raise ValueError else Ok tt.

(** DiagonalOperator.direct, 4281-4285, MaskOperator.direct, linear.py 831-835 *)
Definition diagonal_direct (f : K -> K -> K) (data : array K) (b : bcast) (x : array K) : result (array K) :=
  match b with
  | Rightward => r <- ufunc2_out f (transpose x) (transpose data) (rev (ashape x)) ;; Ok (transpose r)
  | _ => ufunc2_out f x data (ashape x)
  end.
Definition masking (x : K) (m : bool) : K := if m then r0 else x.
Definition mask_direct (m : array bool) (b : bcast) (x : array K) : result (array K) :=
  match b with
  | Rightward => r <- ufunc2_out masking (transpose x) (transpose m) (rev (ashape x)) ;; Ok (transpose r)
  | _ => ufunc2_out masking x m (ashape x)
  end.

(** The operator applied to an array; the shape is verified first (see ShapeModel.v). *)
Definition apply (op : diag) (x : array K) : result (array K) :=
  _ <- match d_shape op with
  | Some s => if shape_eqb s (ashape x) then Ok tt else Raise ValueError
  | None => match d_class op with Diagonal data b => validatein (ashape data) b (ashape x) | _ => Ok tt end
  end ;;
  match d_class op with
  | Zero => Ok (Arr (ashape x) (fun _ => r0))
  | Identity => Ok x
  | Homothety c => diagonal_direct rmul (scalar c) Scalar x
  | Mask m b => mask_direct m b x
  | Diagonal data b => diagonal_direct rmul data b x
  end.

(** ** Inverse: np.divide (4293-4303) with [div] for the division; HomothetyOperator's rule 'I' (4367-4369): a new
    homothety, or NaN. *)
Definition apply_inverse (div : K -> K -> K) (op : diag) (x : array K) : result (array K) :=
  match d_class op with
  | Zero | Mask _ _ => Raise ValueError (* no inverse *)
  | Identity => Ok x
  | Homothety c => apply (homothety (div r1 c) None) x
  | Diagonal data b => diagonal_direct div data b x
  end.
End Diag.
Arguments dclass : clear implicits.
Arguments diag : clear implicits.
