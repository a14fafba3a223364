(** Packing (linear.py 786-957) and conversions between multi-indices and flat indices (nonlinear.py 853-974). *)
From Verif Require Import Base Algebra.

(** ** Packing.  [A] is the type of the elements: numbers for broadcast 'disabled' and for each row of 'leftward',
    sub-arrays for 'rightward' (indexing by a boolean array of the first axes).  A multi-dimensional mask is given
    flattened in C order with its shape apart. *)

(** input[..., data], PackOperator.direct, linear.py 905-909: boolean indexing keeps the elements where True. *)
Fixpoint pack {A} (data : list bool) (x : list A) : list A :=
  match data, x with
  | b :: data', a :: x' => if b then a :: pack data' x' else pack data' x'
  | _, _ => []
  end.

(** output[...] = 0; output[..., data] = input, UnpackOperator.direct, 946-951 *)
Fixpoint unpack {A} (zero : A) (data : list bool) (y : list A) : list A :=
  match data with
  | [] => []
  | true :: data' => match y with
                     | a :: y' => a :: unpack zero data' y'
                     | [] => zero :: unpack zero data' []
                     end
  | false :: data' => zero :: unpack zero data' y
  end.

(** MaskOperator.direct, 828-832, for unaliased arrays (True means masked); the C loop is modelled in NonlinearModel. *)
Fixpoint mask_direct {A} (zero : A) (data : list bool) (x : list A) : list A :=
  match data, x with
  | b :: data', a :: x' => (if b then zero else a) :: mask_direct zero data' x'
  | _, _ => []
  end.

(** self.n = np.sum(data), PackBase.__init__, 842 *)
Definition ntrue (data : list bool) : nat := length (filter (fun b => b) data).

(** Morphing in the constructors, 883-891 and 924-932: np.all(data == data.flat[0]) and data.flat[0] makes a
    DiagonalOperator of ones, which keeps the shape of its input; data.flat[0] of an empty array raises IndexError. *)
Definition all_true (data : list bool) : bool := forallb (fun b => b) data.
Definition pack_op {A} (data : list bool) (x : list A) : result (list A) :=
  match data with
  | [] => Raise IndexError
  | _ => if all_true data then Ok x else Ok (pack data x)
  end.
Definition unpack_op {A} (zero : A) (data : list bool) (y : list A) : result (list A) :=
  match data with
  | [] => Raise IndexError
  | _ => if all_true data then Ok y else Ok (unpack zero data y)
  end.
(** The shape of the output of PackOperator(data), broadcast disabled: shapeout = np.sum(data), 892-894, but the morphed
    operator is DiagonalOperator(data) whose shapeout is data.shape. *)
Definition pack_shapeout (shape : list nat) (data : list bool) : list nat :=
  if all_true data then shape else [ntrue data].

(** The broadcast variants: leftward maps over the leading axes, rightward takes sub-arrays as elements. *)
Definition pack_leftward {A} (data : list bool) (x : list (list A)) : list (list A) := map (pack data) x.
Definition unpack_leftward {A} (zero : A) (data : list bool) (y : list (list A)) : list (list A) := map (unpack zero data) y.
Definition pack_rightward {A} (data : list bool) (x : list (list A)) : list (list A) := pack data x.
Definition unpack_rightward {A} (zero : A) (width : nat) (data : list bool) (y : list (list A)) : list (list A) :=
  unpack (repeat zero width) data y.

(** The simplification rules of PackOperator and UnpackOperator on products 'T,.' (903 and 944): both return the
    identity. *)
Definition rule_T_pack {A} (x : list A) : list A := x.
Definition rule_T_unpack {A} (y : list A) : list A := y.

(** _reshape_packed 845-848, _reshape_unpacked 850-853, _validate_packed 855-861, _validate_unpacked 863-872.
    [dshape] is data.shape, of one dimension at least (data.ndim = 0 makes the negative slices meaningless). *)
Inductive bcast := Leftward | Rightward.
Definition butlast_n {A} (n : nat) (l : list A) : list A := firstn (length l - n) l.
Definition last_n {A} (n : nat) (l : list A) : list A := skipn (length l - n) l.
Definition reshape_packed (b : bcast) (dshape : list nat) (shape : list nat) : list nat :=
  match b with Rightward => dshape ++ skipn 1 shape | Leftward => butlast_n 1 shape ++ dshape end.
Definition reshape_unpacked (b : bcast) (n : nat) (dshape : list nat) (shape : list nat) : list nat :=
  match b with
  | Rightward => n :: skipn (length dshape) shape
  | Leftward => butlast_n (length dshape) shape ++ [n]
  end.
Definition list_nat_eqb (a b : list nat) : bool := if list_eq_dec Nat.eq_dec a b then true else false.
Definition validate_packed (b : bcast) (n : nat) (shape : list nat) : result unit :=
  match (match b with Rightward => hd_error shape | Leftward => hd_error (rev shape) end) with
  | None => Raise IndexError
  | Some a => if a =? n then Ok tt else Raise ValueError
  end.
Definition validate_unpacked (b : bcast) (dshape : list nat) (shape : list nat) : result unit :=
  let actual := match b with Rightward => firstn (length dshape) shape | Leftward => last_n (length dshape) shape end in
  if list_nat_eqb actual dshape then Ok tt else Raise ValueError.

(** ** To1dOperator and ToNdOperator.  Integers are mathematical (no overflow). *)
Inductive order := OrderC | OrderF.

(** np.cumproduct *)
Fixpoint cumprod_from (a : Z) (l : list Z) : list Z :=
  match l with [] => [] | x :: l' => let p := (a * x)%Z in p :: cumprod_from p l' end.
Definition cumprod (l : list Z) : list Z := cumprod_from 1 l.

(** _1dNdOperator.__init__, 857-874: ndim 1 is rejected *)
Definition coefs (shape : list Z) (o : order) : result (list Z) :=
  if length shape =? 1 then Raise NotImplementedError
  else match o with
       | OrderC => Ok (rev (cumprod (1%Z :: rev (skipn 1 shape))))  (* cumproduct((1,) + shape_[:0:-1])[::-1] *)
       | OrderF => Ok (cumprod (1%Z :: removelast shape))           (* cumproduct((1,) + shape_[:-1]) *)
       end.

(** To1dOperator.direct, 930-931: np.dot of a multi-index with the coefficients (one element of the input). *)
Definition zdot (x y : list Z) : Z := fold_right Z.add 0%Z (map (fun p => (fst p * snd p)%Z) (combine x y)).
Definition to1d (shape : list Z) (o : order) (idx : list Z) : result Z :=
  c <- coefs shape o ;; Ok (zdot idx c).

(** ToNdOperator.direct, 969-971: floor_divide by the coefficients, then mod by the shape. *)
Definition tond (shape : list Z) (o : order) (k : Z) : result (list Z) :=
  c <- coefs shape o ;; Ok (map (fun p => ((k / fst p) mod snd p)%Z) (combine c shape)).
