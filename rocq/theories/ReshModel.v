(** ReshapeOperator: core.py 3907-3948; its call: Operator.__call__ 431-498 and _validate_arguments 1301-1395. *)
From Verif Require Import Base.
Local Open Scope Z_scope.

Section Model.
(** The elements of the arrays; the memory, by addresses in units of one element.  All the arrays have the data type of the operator and
    its class: conversions are left out. *)
Context {V : Type}.
Definition memory := Z -> V.
(** numpy arrays: the address of the first element, the numbers of elements and the strides along the dimensions *)
Record array := Arr { a_offset : Z; a_dims : list (nat * Z) }.
Definition a_shape (a : array) : list nat := map fst (a_dims a).
Definition size (shape : list nat) : nat := fold_right Nat.mul 1%nat shape.

(** The addresses of the elements, in C order *)
Fixpoint addresses (offset : Z) (dims : list (nat * Z)) : list Z :=
  match dims with
  | [] => [offset]
  | (n, s) :: dims => flat_map (fun i => addresses (offset + Z.of_nat i * s) dims) (seq 0 n)
  end.
Definition elements (m : memory) (a : array) : list V := map m (addresses (a_offset a) (a_dims a)).

(** The flag C_CONTIGUOUS of numpy: the strides of the dimensions of one element do not count; the arrays without elements are
    contiguous. *)
Fixpoint packed (dims : list (nat * Z)) : bool :=
  match dims with
  | [] => true
  | (n, s) :: dims => packed dims && (Nat.eqb n 1 || Z.eqb s (Z.of_nat (size (map fst dims))))
  end.
Definition contiguous (a : array) : bool := Nat.eqb (size (a_shape a)) 0 || packed (a_dims a).

(** Assignment of values to elements, given by their addresses, one after the other *)
Fixpoint assign (m : memory) (l : list Z) (v : list V) : memory :=
  match l, v with
  | p :: l, x :: v => assign (fun q => if Z.eqb q p then x else m q) l v
  | _, _ => m
  end.

(** a.ravel()[:] = values: ravel gives a view of a contiguous array, with the addresses that follow the first one, and a copy of any other
    array. *)
Definition assign_ravel (m : memory) (a : array) (v : list V) : memory :=
  if contiguous a then assign m (map (fun k => a_offset a + Z.of_nat k) (seq 0 (size (a_shape a)))) v else m.

(** direct, 3942-3945: numpy reads the input before it writes if they overlap.  IdentityOperator.direct, 4413-4416 *)
Definition direct (m : memory) (input output : array) : memory := assign_ravel m output (elements m input).
Definition identity_direct (m : memory) (input output : array) : memory :=
  assign m (addresses (a_offset output) (a_dims output)) (elements m input).

(** ** Operators *)
(** A shape given as an argument: an integer or a tuple (tointtuple, utils/misc.py) *)
Inductive shape_arg := Int (n : nat) | Tuple (l : list nat).
Definition tointtuple (s : shape_arg) : list nat := match s with Int n => [n] | Tuple l => l end.
Inductive operator := Reshape (shapein shapeout : list nat) | Identity (shape : list nat).
Definition shapein (o : operator) : list nat := match o with Reshape s _ => s | Identity s => s end.
Definition shapeout (o : operator) : list nat := match o with Reshape _ s => s | Identity s => s end.
Definition shape_eqb (s t : list nat) : bool := if list_eq_dec Nat.eq_dec s t then true else false.
(** __init__, 3921-3934.  None stands for the default. *)
Definition reshape (si so : option shape_arg) : result operator :=
  match si, so with
  | Some si, Some so =>
      let si := tointtuple si in
      let so := tointtuple so in
      if negb (Nat.eqb (size si) (size so)) then Raise ValueError
      else if shape_eqb si so then Ok (Identity si) else Ok (Reshape si so)
  | _, _ => Raise ValueError
  end.
(** The transpose, 3935; that of the symmetric IdentityOperator is itself. *)
Definition transpose (o : operator) : result operator :=
  match o with Reshape si so => reshape (Some (Tuple so)) (Some (Tuple si)) | Identity _ => Ok o end.
(** The composition o1 * o2: the shapes have to match (C15); the rule 3936-3940, the rules of IdentityOperator 4418-4424 *)
Definition compose (o1 o2 : operator) : result operator :=
  if negb (shape_eqb (shapein o1) (shapeout o2)) then Raise ValueError
  else
    match o1, o2 with
    | Identity _, _ => Ok o2
    | _, Identity _ => Ok o1
    | Reshape _ so, Reshape si _ => reshape (Some (Tuple si)) (Some (Tuple so))
    end.

(** The call o(x, out): the shapes are checked (1378), a contiguous output is not asked for, so that out is given to direct as it is
    (1356-1373): iscompatible (memory.py 102-121) accepts any array with the right shape. *)
Definition call (o : operator) (m : memory) (x out : array) : result memory :=
  if negb (shape_eqb (a_shape x) (shapein o)) then Raise ValueError
  else if negb (shape_eqb (a_shape out) (shapeout o)) then Raise ValueError
  else Ok (match o with Reshape _ _ => direct m x out | Identity _ => identity_direct m x out end).
(** The call o(x): the output is a new contiguous array, at the address p. *)
Fixpoint c_dims (shape : list nat) : list (nat * Z) :=
  match shape with [] => [] | n :: s => (n, Z.of_nat (size s)) :: c_dims s end.
Definition new_array (p : Z) (shape : list nat) : array := Arr p (c_dims shape).

(** The slice a[:, j:j+1] of an array with two dimensions, which BlockColumnOperator gives to its operand number j (3797-3802) when the
    outputs of the operands have one column.  Its copy_if copies only for operands with the flag contiguous_output. *)
Definition column (a : array) (j : nat) : array :=
  match a_dims a with
  | [(n, s); (_, t)] => Arr (a_offset a + Z.of_nat j * t) [(n, s); (1%nat, t)]
  | _ => a
  end.
End Model.
Arguments memory : clear implicits.
