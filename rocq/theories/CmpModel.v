(** The functions of utils/testing.py with which results are compared: assert_same, 27-107, and assert_eq, 110-168.
    Numbers are the rational numbers, the two infinities and NaN; roundings and complex numbers are left out, and so are the
    messages. *)
From Coq Require Import QArith Qabs Qminmax String.
From Verif Require Import Base BlockModel BlockSpec DiagModel.
Open Scope nat_scope.
Open Scope list_scope.

(** ** The arithmetic of IEEE 754 *)
Inductive fnum := Fin (q : Q) | Inf (positive : bool) | NaN.
Definition fopp (a : fnum) : fnum := match a with Fin p => Fin (- p) | Inf s => Inf (negb s) | NaN => NaN end.
Definition fadd (a b : fnum) : fnum :=
  match a, b with
  | NaN, _ | _, NaN => NaN
  | Inf s, Inf t => if Bool.eqb s t then Inf s else NaN
  | Inf s, Fin _ | Fin _, Inf s => Inf s
  | Fin p, Fin q => Fin (p + q)
  end.
Definition fsub (a b : fnum) : fnum := fadd a (fopp b).
Definition fabs (a : fnum) : fnum := match a with Fin p => Fin (Qabs p) | Inf _ => Inf true | NaN => NaN end.
(** [c * a] for a finite [c] *)
Definition fscale (c : Q) (a : fnum) : fnum :=
  match a with
  | Fin p => Fin (c * p)
  | Inf s => match c ?= 0 with Eq => NaN | Gt => Inf s | Lt => Inf (negb s) end
  | NaN => NaN
  end%Q.
Definition fle (a b : fnum) : bool :=
  match a, b with
  | NaN, _ | _, NaN => false
  | Fin p, Fin q => Qle_bool p q
  | Inf false, _ | _, Inf true => true
  | Inf true, _ | _, Inf false => false
  end.
Definition feq (a b : fnum) : bool :=
  match a, b with Fin p, Fin q => Qeq_bool p q | Inf s, Inf t => Bool.eqb s t | _, _ => false end.
Definition isnan (a : fnum) : bool := match a with NaN => true | _ => false end.
Definition isfinite (a : fnum) : bool := match a with Fin _ => true | _ => false end.
(** np.minimum: NaN if one of them is *)
Definition fmin (a b : fnum) : fnum := if isnan a || isnan b then NaN else if fle a b then a else b.

(** ** numpy

    The dtypes: booleans and integers, float16 to float128, and those that are not numbers. *)
Inductive precision := Half | Single | Double | Extended.
Inductive dtype := Integer | Float (p : precision) | NotNumeric.
(** np.finfo(dtype).eps *)
Definition eps (p : precision) : Q :=
  match p with Half => 1 # 2 ^ 10 | Single => 1 # 2 ^ 23 | Double => 1 # 2 ^ 52 | Extended => 1 # 2 ^ 63 end%positive.
(** dtype1 < dtype2: dtype1 can be cast to dtype2, and is another one. *)
Definition rank (p : precision) : nat := match p with Half => 0 | Single => 1 | Double => 2 | Extended => 3 end.
Definition finer (p q : precision) : bool := rank p <? rank q.
Record narray := NA { n_dtype : dtype; n_arr : array fnum }.
(** np.all *)
Definition all_true (x : array bool) : bool := forallb (aval x) (indices (ashape x)).
Definition AssertionError : exn := OtherError 1.
Definition check (b : bool) : result unit := if b then Ok tt else Raise AssertionError.
Definition same_shape {A B} (x : array A) (y : array B) : bool := if list_eq_dec Nat.eq_dec (ashape x) (ashape y) then true else false.

(** sorted(dtypes)[0], 69: sorted is stable, so the first one unless the second one is less. *)
Definition smallest (p q : precision) : precision := if finer q p then q else p.

(** The comparison of two elements, 75-78; [eps1] and [eps2] are finite. *)
Definition same_element (eps1 eps2 : Q) (a d : fnum) : bool :=
  fle (fabs (fsub a d)) (fadd (fscale eps1 (fmin (fabs a) (fabs d))) (Fin eps2)) || isnan a && isnan d || feq a d.

(** assert_same, 27-107.  The tests that build the message (82-99) raise no other exception. *)
Definition assert_same (actual desired : narray) (atol rtol : Q) (broadcasting : bool) : result unit :=
  let a := n_arr actual in
  let d := n_arr desired in
  let inexact p :=
    let eps1 := (eps p * rtol)%Q in
    let eps2 := (eps p * atol)%Q in
    same <- ufunc2 (same_element eps1 eps2) a d ;; check (all_true same) in
  match n_dtype actual, n_dtype desired with
  | NotNumeric, _ | _, NotNumeric => Raise TypeError
  | da, dd =>
      if negb broadcasting && negb (same_shape a d) then Raise AssertionError
      else match da, dd with
        | Float p, Float q => inexact (smallest p q)
        | Float p, _ => inexact p
        | _, Float q => inexact q
        | _, _ => same <- ufunc2 feq a d ;; check (all_true same)
        end
  end.

(** ** assert_eq

    The values: None, numbers, texts, sets and frozensets of texts (in the order in which they are iterated over), lists,
    tuples, dictionaries whose keys are texts, arrays of numbers, and other objects, equal to themselves only.  Subclasses
    of ndarray are left out.  The shortcut of 112-113 for identical objects is left out: values are accepted against
    themselves anyway (C55_reflexive). *)
Inductive pyval :=
| VNone | VNum (x : fnum) | VStr (s : string) | VSet (l : list string) | VFrozen (l : list string)
| VList (l : list pyval) | VTuple (l : list pyval) | VDict (l : list (string * pyval)) | VArr (a : array fnum) | VObj (id : nat).

Definition is_arr (v : pyval) : bool := match v with VArr _ => true | _ => false end.
Definition is_num (v : pyval) : bool := match v with VArr _ | VNum _ => true | _ => false end.
Definition is_seq (v : pyval) : bool := match v with VList _ | VTuple _ => true | _ => false end.
(** A Container, but neither a set nor a text *)
Definition is_container (v : pyval) : bool := match v with VList _ | VTuple _ | VDict _ | VFrozen _ => true | _ => false end.
(** list(v) *)
Definition items (v : pyval) : list pyval :=
  match v with
  | VList l | VTuple l => l
  | VDict l => map (fun kv => VStr (fst kv)) l
  | VFrozen l => map VStr l
  | _ => []
  end.

(** np.array of arrays of the same shape *)
Definition stack (l : list (array fnum)) : option (array fnum) :=
  match l with
  | [] => Some (Arr [0] (fun _ => NaN))
  | x :: l' =>
      if forallb (same_shape x) l' then
        Some (Arr (List.length l :: ashape x) (fun idx => match idx with i :: idx' => aval (nth i l x) idx' | [] => NaN end))
      else None
  end.
(** np.array(v), for numbers, arrays and lists and tuples of them; anything else makes assert_allclose raise an exception. *)
Fixpoint array_of (v : pyval) : option (array fnum) :=
  match v with
  | VNum x => Some (scalar x)
  | VArr a => Some a
  | VList l | VTuple l =>
      match (fix go (l : list pyval) : option (list (array fnum)) :=
               match l with
               | [] => Some []
               | v :: l' => match array_of v, go l' with Some a, Some r => Some (a :: r) | _, _ => None end
               end) l with
      | Some r => stack r
      | None => None
      end
  | _ => None
  end.
(** np.isclose(a, b, rtol=1e-7, atol=0, equal_nan=True) *)
Definition isclose (a b : fnum) : bool :=
  if isfinite a && isfinite b then fle (fabs (fsub a b)) (fscale (1 # 10 ^ 7)%positive (fabs b))
  else isnan a && isnan b || feq a b.
(** assert_allclose(a, b): the shapes are the same, or one of them is (). *)
Definition scalar_shape {A} (x : array A) : bool := match ashape x with [] => true | _ => false end.
Definition allclose (a b : array fnum) : bool :=
  if scalar_shape a || scalar_shape b || same_shape a b then
    match ufunc2 isclose a b with Ok same => all_true same | Raise _ => false end
  else false.
Definition assert_allclose (a b : pyval) : bool :=
  match array_of a, array_of b with Some x, Some y => allclose x y | _, _ => false end.

Definition mem (s : string) (l : list string) : bool := existsb (String.eqb s) l.
Definition same_set (l m : list string) : bool := forallb (fun s => mem s m) l && forallb (fun s => mem s l) m.
(** a == b, 164, for the values that reach it *)
Definition py_equal (a b : pyval) : bool :=
  match a, b with
  | VNone, VNone => true
  | VStr s, VStr t => String.eqb s t
  | VSet l, VSet m | VSet l, VFrozen m | VFrozen l, VSet m => same_set l m
  | VObj i, VObj j => i =? j
  | _, _ => false
  end.
Fixpoint lookup (k : string) (l : list (string * pyval)) : option pyval :=
  match l with [] => None | (k', v) :: l' => if String.eqb k k' then Some v else lookup k l' end.
(** assert_eq(text, b) *)
Definition str_eq (s : string) (b : pyval) : bool := match b with VStr t => String.eqb s t | _ => false end.
Fixpoint strs_eq (l : list string) (m : list pyval) : bool :=
  match l, m with s :: l', b :: m' => str_eq s b && strs_eq l' m' | _, _ => true end.

(** assert_eq, 110-168: whether no exception is raised *)
Fixpoint assert_eq (a b : pyval) {struct a} : bool :=
  if is_num a && is_num b || is_arr a && is_seq b || is_arr b && is_seq a then assert_allclose a b
  else if is_arr a || is_arr b then false
  else
    match a, b with
    | VDict la, VDict lb =>
        same_set (map fst la) (map fst lb)
        && (fix go (l : list (string * pyval)) : bool :=
              match l with
              | [] => true
              | (k, v) :: l' => match lookup k lb with Some w => assert_eq v w | None => false end && go l'
              end) la
    | _, _ =>
        if is_container a && is_container b then
          (List.length (items a) =? List.length (items b))
          && match a with
             | VList l | VTuple l =>
                 (fix go (l m : list pyval) : bool := match l, m with v :: l', w :: m' => assert_eq v w && go l' m' | _, _ => true end)
                   l (items b)
             | VDict l => strs_eq (map fst l) (items b)
             | VFrozen l => strs_eq l (items b)
             | _ => true
             end
        else py_equal a b
    end.
