(** Data types of the results: /repo/src/pyoperators/core.py 757-762 (_find_common_type), 1013-1016, 1075-1090, 1301-1395 (_validate_arguments), 1717-1722, 1839-1862, 2598-2603 (_get_dtypes), 4243-4279
    (DiagonalOperator) and utils/misc.py 247-367.  Arrays are values of any type with conversions; memory is in BufferModel.v. *)
From Verif Require Import Base.
Local Open Scope nat_scope.

(** * numpy *)
(** kind (boolean, signed, unsigned, floating, complex, object, other), itemsize in bytes, and whether the byte order is the one of the machine *)
Inductive kind := Bool_ | Int_ | UInt_ | Float_ | Complex_ | Object_ | Other_.
Record dtype := Dt { d_kind : kind; d_size : nat; d_native : bool }.
Definition kind_eqb (a b : kind) : bool :=
  match a, b with Bool_, Bool_ | Int_, Int_ | UInt_, UInt_ | Float_, Float_ | Complex_, Complex_ | Object_, Object_ | Other_, Other_ => true | _, _ => false end.
Definition dtype_eqb (s t : dtype) : bool := kind_eqb (d_kind s) (d_kind t) && (d_size s =? d_size t) && Bool.eqb (d_native s) (d_native t).
(** t >= s, i. e. numpy.can_cast(s, t): conversions that numpy calls safe.  (Only used for the types [t] below.) *)
Definition can_cast (s t : dtype) : bool :=
  let n := d_size s in
  let m := d_size t in
  match d_kind s, d_kind t with
  | _, Object_ => true
  | Object_, _ | Other_, _ | _, Other_ => false
  | Bool_, _ => true
  | Int_, Int_ | UInt_, UInt_ | Float_, Float_ | Complex_, Complex_ => n <=? m
  | UInt_, Int_ => n <? m
  | Int_, Float_ | UInt_, Float_ => (n <? m) || (8 <=? m)
  | Int_, Complex_ | UInt_, Complex_ => (2 * n <? m) || (16 <=? m)
  | Float_, Complex_ => 2 * n <=? m
  | _, _ => false
  end.
(** The types tried by numpy.find_common_type (numpy < 2, 64 bits): ?bBhHiIlLqQefdgFDGO *)
Definition test_types : list dtype :=
  map (fun p => Dt (fst p) (snd p) true)
    [(Bool_, 1); (Int_, 1); (UInt_, 1); (Int_, 2); (UInt_, 2); (Int_, 4); (UInt_, 4); (Int_, 8); (UInt_, 8); (Int_, 8); (UInt_, 8);
     (Float_, 2); (Float_, 4); (Float_, 8); (Float_, 16); (Complex_, 8); (Complex_, 16); (Complex_, 32); (Object_, 8)].
(** numpy.find_common_type(l, []) *)
Definition find_common_type (l : list dtype) : option dtype :=
  match l with
  | [] => None
  | [t] => Some t
  | _ => find (fun t => forallb (fun s => can_cast s t) l) test_types
  end.

(** * The library *)
(** Operator._find_common_type, core.py 757-762 *)
Definition somes {A} (l : list (option A)) : list A := flat_map (fun o => match o with Some a => [a] | None => [] end) l.
Definition common_type (l : list (option dtype)) : option dtype := match somes l with [] => None | l => find_common_type l end.

Section Calls.
(** [V]: contents of arrays; [astype t]: conversion to the type t; [add t]: addition of arrays of type t *)
Context {V : Type} (astype : dtype -> V -> V) (add : dtype -> V -> V -> V).
(** The attribute dtype and the method direct, from the types of the input and of the output and the contents of the input *)
Record oper := Oper { o_dtype : option dtype; o_direct : dtype -> dtype -> V -> V }.
Record array := Array { a_dtype : dtype; a_data : V }.
(** __call__ with _validate_arguments, 1301-1395: [out] is the type of the argument out.  (The common type always exists.) *)
Definition call (o : oper) (x : array) (out : option dtype) : result array :=
  match common_type [Some (a_dtype x); o_dtype o] with
  | None => Raise TypeError
  | Some t =>
      let v := if dtype_eqb (a_dtype x) t then a_data x else astype t (a_data x) in
      match out with
      | Some t' => if dtype_eqb t' t then Ok (Array t (o_direct o t t v)) else Raise ValueError
      | None => Ok (Array t (o_direct o t t v))
      end
  end.
(** CompositionOperator._get_dtypes, 2598-2603: the types of the outputs of the operands, from the first applied *)
Fixpoint get_dtypes (t : dtype) (ops : list (option dtype)) : list (option dtype) :=
  match ops with
  | [] => []
  | d :: ops => let t' := common_type [Some t; d] in t' :: match t' with Some t' => get_dtypes t' ops | None => [] end
  end.
(** CompositionOperator.direct, 2330-2396: the operands are called one after the other, from the last of the list, on arrays of these types, without conversion *)
Fixpoint apply_operands (tin : dtype) (v : V) (l : list (oper * dtype)) : V := match l with [] => v | (o, t) :: l => apply_operands t (o_direct o tin t v) l end.
Definition composition (ops : list oper) : oper :=
  Oper (common_type (map o_dtype ops)) (fun tin tout v => apply_operands tin v (combine (rev ops) (somes (get_dtypes tin (map o_dtype (rev ops)))))).
(** AdditionOperator, CommutativeCompositeOperator.direct 1839-1862 *)
Definition addition (o : oper) (ops : list oper) : oper :=
  Oper (common_type (map o_dtype (o :: ops))) (fun tin tout v => fold_left (fun w o => add tout w (o_direct o tin tout v)) ops (o_direct o tin tout v)).
End Calls.
Arguments oper : clear implicits. Arguments array : clear implicits.

(** DiagonalOperator.__init__, 4243-4279: the type of the operator built from data of the type [t], with the argument dtype [d].  The data are zeros, ones, the same number, zeros and ones or anything
    else; [isscalar] if it has no dimension (and then is not mixed).  The operator may become of another class. *)
Inductive content := Zeros | Ones | Same | ZerosAndOnes | Mixed.
Definition diagonal_dtype (c : content) (t : dtype) (d : option dtype) : option dtype :=
  match c with
  | Zeros | Ones => d
  | ZerosAndOnes => None
  | Same | Mixed => match d with Some d => Some d | None => Some t end
  end.

(** _init_flags, 1075-1090, for a ufunc: its types of output (the character _[3]) and the argument dtype: the dtype of the operator *)
Definition ufunc_dtype (outs : list dtype) (d : option dtype) : option dtype :=
  match d with
  | Some d => Some d
  | None =>
      let is_complex t := match d_kind t with Complex_ | Object_ | Other_ => true | _ => false end in
      let is_inexact t := match d_kind t with Float_ | Complex_ | Object_ | Other_ => true | _ => false end in
      if forallb is_complex outs then Some (Dt Complex_ 16 true) else if forallb is_inexact outs then Some (Dt Float_ 8 true) else None
  end.

(** utils/misc.py 247-274 *)
Definition complex_dtype (t : dtype) : result dtype :=
  match d_kind t with
  | Complex_ => Ok t
  | Bool_ | Int_ | UInt_ => Ok (Dt Complex_ 16 true)
  | Float_ => if d_size t =? 2 then Ok (Dt Complex_ 16 true) else Ok (Dt Complex_ (d_size t * 2) (d_native t))
  | _ => Raise TypeError
  end.
(** 277-308 *)
Definition float_dtype (t : dtype) : result dtype :=
  match d_kind t with
  | Float_ => Ok t
  | Bool_ | Int_ | UInt_ => Ok (Dt Float_ 8 true)
  | Complex_ => Ok (Dt Float_ (d_size t / 2) (d_native t))
  | _ => Raise TypeError
  end.
(** 311-342 *)
Definition float_intrinsic_dtype (t : dtype) : result dtype :=
  match d_kind t with
  | Bool_ | Int_ | UInt_ => Ok (Dt Float_ 8 true)
  | Float_ => Ok (Dt Float_ (Nat.max 4 (Nat.min (d_size t) 8)) true)
  | Complex_ => Ok (Dt Float_ (Nat.max 4 (Nat.min (d_size t / 2) 8)) true)
  | _ => Raise TypeError
  end.
(** 345-367 *)
Definition float_or_complex_dtype (t : dtype) : result dtype :=
  match d_kind t with
  | Bool_ | Int_ | UInt_ => Ok (Dt Float_ 8 true)
  | Float_ | Complex_ => Ok t
  | _ => Raise TypeError
  end.
