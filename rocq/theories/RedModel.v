(** Sum, difference and integration operators: core.py 4569-4655, linear.py 735-784, 1297-1338 and 1826-1858.  Numbers are
    elements of a ring: rounding and NaN are left out (the keyword skipna has no effect).  numpy is older than version 2. *)
From Verif Require Import Base Algebra Ofield BlockModel BlockSpec DiagModel.

(** ** numpy *)
Definition prod (s : list nat) : nat := fold_right Nat.mul 1 s.
(** The position of an element in the C order, and the element at a position. *)
Fixpoint flat (s idx : list nat) : nat := match s, idx with _ :: s', i :: idx' => i * prod s' + flat s' idx' | _, _ => 0 end.
Fixpoint unflat (s : list nat) (k : nat) : list nat := match s with [] => [] | _ :: s' => k / prod s' :: unflat s' (k mod prod s') end.
(** x.reshape(s) *)
Definition reshape {A} (x : array A) (s : list nat) : result (array A) :=
  if Nat.eqb (prod (ashape x)) (prod s) then Ok (Arr s (fun idx => aval x (unflat (ashape x) (flat s idx)))) else Raise ValueError.
(** A slice bound of a sequence of n elements; s[:z], s[z:] *)
Definition bound (z : Z) (n : nat) : nat := Z.to_nat (if (z <? 0)%Z then z + Z.of_nat n else Z.min z (Z.of_nat n)).
Definition upto {A} (z : Z) (s : list A) : list A := firstn (bound z (length s)) s.
Definition from {A} (z : Z) (s : list A) : list A := skipn (bound z (length s)) s.
(** The axis argument of the functions of numpy *)
Definition axis_of (z : Z) (n : nat) : result nat :=
  if ((- Z.of_nat n <=? z) && (z <? Z.of_nat n))%Z then Ok (Z.to_nat (if (z <? 0)%Z then z + Z.of_nat n else z)) else Raise IndexError.

Section Red.
Context {K : cring}.
(** np.nansum(x, axis=axis), np.add.reduce(x, axis) *)
Definition np_sum (axis : Z) (x : array K) : result (array K) :=
  a <- axis_of axis (length (ashape x)) ;;
  Ok (Arr (remove_at a (ashape x)) (fun idx => sum (nth a (ashape x) 0) (fun i => aval x (insert a i idx)))).
(** np.diff(x, axis=axis) *)
Definition np_diff (axis : Z) (x : array K) : result (array K) :=
  a <- axis_of axis (length (ashape x)) ;;
  Ok (Arr (set_nth (ashape x) a (nth a (ashape x) 0 - 1))
          (fun idx => rsub (aval x (set_nth idx a (S (nth a idx 0)))) (aval x (set_nth idx a (nth a idx 0))))).

(** ** ReductionOperator and SumOperator *)

(** reshapein, core.py 4639-4642 *)
Definition red_reshapein (axis : Z) (s : list nat) : list nat :=
  if (axis =? -1)%Z then upto (-1) s else upto axis s ++ from (axis + 1) s.
(** validatein, 4644-4655 *)
Definition red_validatein (axis : option Z) (s : list nat) : result unit :=
  if Nat.eqb (length s) 0 then Raise TypeError
  else match axis with
       | None => Ok tt
       | Some a => if (Z.of_nat (length s) <? (if (0 <=? a)%Z then a + 1 else Z.abs a))%Z then Raise ValueError else Ok tt
       end.
(** The call of a SumOperator.  Without axis (4597-4598, 4610-4611) the shape of the output is () and the input is flattened. *)
Definition sum_call (axis : option Z) (x : array K) : result (array K) :=
  _ <- red_validatein axis (ashape x) ;;
  match axis with
  | None => Ok (Arr [] (fun _ => lsum (ravel x)))
  | Some a => y <- np_sum a x ;; if shape_eqb (ashape y) (red_reshapein a (ashape x)) then Ok y else Raise ValueError
  end.
(** transpose, linear.py 1331-1338; [out] is the shape of the output *)
Definition sum_transpose (axis : option Z) (y : array K) (out : list nat) : result (array K) :=
  match axis with
  | None => assign y out
  | Some a =>
      let shape := if (a =? -1)%Z then ashape y ++ [1] else upto a (ashape y) ++ [1] ++ from a (ashape y) in
      z <- reshape y shape ;; assign z out
  end.

(** ** DifferenceOperator, linear.py 1826-1858 *)
Definition diff_reshapein (axis : Z) (s : list nat) : result (list nat) :=
  a <- axis_of axis (length s) ;; Ok (set_nth s a (nth a s 0 - 1)).
Definition diff_reshapeout (axis : Z) (s : list nat) : result (list nat) :=
  a <- axis_of axis (length s) ;; Ok (set_nth s a (nth a s 0 + 1)).
Definition diff_call (axis : Z) (x : array K) : result (array K) :=
  s <- diff_reshapein axis (ashape x) ;;
  y <- np_diff axis x ;;
  if shape_eqb (ashape y) s then Ok y else Raise ValueError.
(** transpose, 1841-1848; the elements are converted to double precision numbers ([cast]) when they are stored in tmp *)
Definition diff_transpose (cast : K -> K) (axis : Z) (y : array K) : result (array K) :=
  a <- axis_of axis (length (ashape y)) ;;
  let shapetmp := set_nth (ashape y) a (nth a (ashape y) 0 + 2) in
  let tmp := Arr shapetmp (fun idx =>
    let i := nth a idx 0 in
    if (1 <=? i) && (i <? nth a shapetmp 0 - 1) then cast (aval y (set_nth idx a (i - 1))) else r0) in
  d <- np_diff axis tmp ;;
  s <- diff_reshapeout axis (ashape y) ;;
  if shape_eqb (ashape d) s then Ok (Arr (ashape d) (fun idx => ropp (aval d idx))) else Raise ValueError.
End Red.

(** ** IntegrationTrapezeOperator, linear.py 772-784 *)
Section Trapeze.
Context {K : ofield}.
Definition half : K := div r1 (radd r1 r1).
Definition diffs (x : list K) : list K := map (fun p => rsub (snd p) (fst p)) (combine x (tl x)).
(** The array of the weights has the type of the abscissa: [cast] is the conversion to this type. *)
Definition weights (cast : K -> K) (x : list K) : result (list K) :=
  if length x <? 2 then Raise ValueError
  else if existsb (fun d => ltb d r0) (diffs x) && existsb (fun d => ltb r0 d) (diffs x) then Raise ValueError
  else
    let n := length x in
    let at_ i := nth i x r0 in
    Ok (map (fun i => cast (rmul half (if i =? 0 then rsub (at_ 1) (at_ 0)
                                       else if i =? n - 1 then rsub (at_ (n - 1)) (at_ (n - 2))
                                       else rsub (at_ (i + 1)) (at_ (i - 1))))) (seq 0 n)).
Definition homothety_block (w : K) : blk K := {| k_fun := fun x => Arr (ashape x) (fun idx => rmul w (aval x idx)); k_reshapein := fun s => s |}.
(** The block row operator, applied to an array of shape s with the n blocks along the new axis *)
Definition trapeze (cast : K -> K) (x : list K) (new_axis : Z) (f out : array K) : result (array K) :=
  w <- weights cast x ;;
  row_direct radd (map homothety_block w) (repeat (Some 1) (length w)) (NewAxis new_axis) f out.
End Trapeze.
