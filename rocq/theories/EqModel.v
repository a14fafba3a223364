(** Comparison of values and of operators: utils/misc.py, all_eq, 139-183, and core.py, Operator.__eq__, 1547-1559.

    A value is an object: its identity is a number.  Numbers are rationals or one of the three special values of the floats (the differences are not rounded).  An array has a shape and an element for each multi-index. *)
From Coq Require Import String QArith Qabs.
From Verif Require Import Base.
Local Open Scope nat_scope.
Local Open Scope list_scope.

Inductive num := Fin (q : Q) | PInf | NInf | NaN.
Record array := Array { a_shape : list nat; a_get : list nat -> num }.
(** CObj: an object compared by its own ==, here by the number k (None, types, dtypes, communicators, ...).  CInt: int and bool.  CFloat: float and the scalars of numpy.  CMap and CSeq: a mapping and a container with their types (sets, which have no
    order, are left out).  CMethod: a bound method, by the class of its object and its function.  CLambda: a function, by its code.  COp: an operator, by its type and its __dict__. *)
Inductive value := V (id : nat) (c : content)
with content :=
  | CObj (k : nat) | CInt (z : Z) | CFloat (x : num) | CArray (a : array) | CStr (s : string) | CMap (ty : nat) (l : list (string * value)) | CSeq (ty : nat) (l : list value)
  | CMethod (cls func : nat) | CLambda (code : nat) | COp (ty : nat) (l : list (string * value)).
Definition id_of (v : value) : nat := let (i, _) := v in i.
Definition content_of (v : value) : content := let (_, c) := v in c.

(** numpy.isclose with its defaults rtol = 1e-5 and atol = 1e-8: |x - y| <= atol + rtol |y|, infinities are close to themselves, NaN to nothing *)
Definition isclose (x y : num) : bool :=
  match x, y with
  | Fin x, Fin y => Qle_bool (Qabs (x - y)) ((1 # 100000000) + (1 # 100000) * Qabs y)
  | PInf, PInf | NInf, NInf => true
  | _, _ => false
  end.
(** Broadcasting of shapes, from the last dimension *)
Fixpoint bshape_rev (a b : list nat) : option (list nat) :=
  match a, b with
  | [], b => Some b
  | a, [] => Some a
  | x :: a, y :: b =>
      match bshape_rev a b with
      | None => None
      | Some s => if x =? y then Some (x :: s) else if x =? 1 then Some (y :: s) else if y =? 1 then Some (x :: s) else None
      end
  end.
Definition bshape (a b : list nat) : option (list nat) := option_map (@rev nat) (bshape_rev (rev a) (rev b)).
Fixpoint indices (s : list nat) : list (list nat) := match s with [] => [[]] | n :: s => flat_map (fun i => map (cons i) (indices s)) (seq 0 n) end.
(** The element of an array for a multi-index of the broadcast shape *)
Definition bget (a : array) (idx : list nat) : num :=
  let idx := skipn (length idx - length (a_shape a)) idx in
  a_get a (map (fun p => if fst p =? 1 then 0 else snd p) (combine (a_shape a) idx)).
(** np.asanyarray of a number, an array or a sequence of numbers (nested sequences are left out).  None: an array of objects, which isclose refuses. *)
Definition scalar_of (c : content) : option num := match c with CInt z => Some (Fin (inject_Z z)) | CFloat x => Some x | _ => None end.
Fixpoint scalars (l : list value) : option (list num) :=
  match l with
  | [] => Some []
  | v :: l => match scalar_of (content_of v), scalars l with Some x, Some r => Some (x :: r) | _, _ => None end
  end.
Definition as_array (c : content) : option array :=
  match c with
  | CArray a => Some a
  | CSeq _ l => match scalars l with Some r => Some (Array [length r] (fun i => nth (hd 0 i) r NaN)) | None => None end
  | c => match scalar_of c with Some x => Some (Array [] (fun _ => x)) | None => None end
  end.
(** np.allclose *)
Definition allclose (a b : content) : result bool :=
  match as_array a, as_array b with
  | Some a, Some b =>
      match bshape (a_shape a) (a_shape b) with
      | Some s => Ok (forallb (fun i => isclose (bget a i) (bget b i)) (indices s))
      | None => Raise ValueError
      end
  | _, _ => Raise TypeError
  end.
(** isinstance(a, (float, np.ndarray, np.number)) *)
Definition floating (c : content) : bool := match c with CFloat _ | CArray _ => true | _ => false end.

Fixpoint lookup (k : string) (l : list (string * value)) : option value := match l with [] => None | (k', v) :: l => if String.eqb k k' then Some v else lookup k l end.
Definition subset (l l' : list (string * value)) : bool := forallb (fun p => match lookup (fst p) l' with Some _ => true | None => false end) l.
(** The attributes that are not compared, 1554-1558 *)
Definition ignored (k : string) : bool := existsb (String.eqb k) ["rules"; "_C"; "_T"; "_H"; "_I"; "_D"]%string.
Definition kept (l : list (string * value)) : list (string * value) := filter (fun p => negb (ignored (fst p))) l.
(** r, and then s if r is True *)
Definition also (r : result bool) (s : result bool) : result bool := match r with Ok true => s | r => r end.

(** all_eq *)
Fixpoint all_eq (a b : value) {struct a} : result bool :=
  let (i, ca) := a in let (j, cb) := b in
  if i =? j then Ok true else
  match ca with
  | CMap ty l =>
      match cb with
      | CMap ty' l' =>
          if negb (ty =? ty') then Ok false else if negb (subset l l' && subset l' l) then Ok false else
          (fix go l := match l with [] => Ok true | (k, v) :: l => also (match lookup k l' with Some w => all_eq v w | None => Raise KeyError end) (go l) end) l
      | _ => Ok false
      end
  | CStr s => match cb with CStr s' => Ok (String.eqb s s') | _ => Ok false end
  | _ =>
      if floating ca || floating cb then allclose ca cb else
      match ca, cb with
      | CSeq ty l, CSeq ty' l' =>
          if negb (ty =? ty') then Ok false else if negb (length l =? length l') then Ok false else
          (fix go l l' := match l, l' with v :: l, w :: l' => also (all_eq v w) (go l l') | _, _ => Ok true end) l l'
      | CMethod c f, CMethod c' f' => Ok ((c =? c') && (f =? f'))
      | CLambda c, CLambda c' => Ok (c =? c')
      | CObj k, CObj k' => Ok (k =? k')
      | CInt z, CInt z' => Ok (z =? z')%Z
      | COp ty l, COp ty' l' => (* Operator.__eq__ *)
          if negb (ty =? ty') then Ok false else if negb (subset (kept l) (kept l') && subset (kept l') (kept l)) then Ok false else
          (fix go l := match l with [] => Ok true | (k, v) :: l => if ignored k then go l else also (match lookup k (kept l') with Some w => all_eq v w | None => Raise KeyError end) (go l) end) l
      | _, _ => Ok false
      end
  end.
