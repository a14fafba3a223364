(** The representation of operators: core.py, Operator.__repr__ (1585-1663). *)
From Coq Require Import List Arith ZArith Bool String DecimalString.
From Verif Require Import Base.
Import ListNotations.
Open Scope string_scope.

(** The values of the attributes.  [Method]: a bound method.  [Array]: an array of at least one dimension, with the name of its class unless it is
    np.ndarray, its numbers of dimensions and of elements, the texts of its first and of its last element and of its dtype.  [Other]: any other object, with
    what repr and str give for it (arrays without dimension are such objects: 1645-1646 take repr of the scalar; so are the communicators of MPI, with
    str, and dtypes). *)
Inductive value :=
  | None_ | Method | AnOperator | Class (full_name : string) | Tuple (l : list nat)
  | Array (class : option string) (ndim size : nat) (first last dtype : string) | Other (repr str : string).

(** inspect.signature(init).parameters: name and default; inspect._empty is the default of a required parameter and also of *args and **keywords *)
Inductive kind := Required | Default (d : value) | Variadic.
Definition parameter := (string * kind)%type.

(** What __repr__ reads: __name__ (None when the operator is not initialised), the name of the class, the signature of the constructor (of a bound method, so
    without self), the attributes, the flags square, shape_input == 'implicit' and shape_output == 'implicit' *)
Record operator := {
  name : option string; class_name : string; signature : list parameter; attribute : string -> option value;
  square : bool; implicit_in : bool; implicit_out : bool }.

Definition mem (n : string) (l : list parameter) : bool := existsb (fun p => String.eqb n (fst p)) l.
(** 1590-1602: the dict of the parameters, to which the shapes are added *)
Definition parameters (o : operator) : list parameter :=
  let l := signature o in
  let l := if mem "shapein" l then l else (l ++ [("shapein", Default None_)])%list in
  if mem "shapeout" l then l else (l ++ [("shapeout", Default None_)])%list.

(** 1604-1617: the parameters that are not looked at *)
Definition hidden (o : operator) (n : string) : bool :=
  String.eqb n "flags" || String.eqb n "self" || (String.eqb n "shapeout" && implicit_out o) || (String.eqb n "shapein" && implicit_in o)
  || (String.eqb n "reshapeout" && square o && implicit_in o).
(** getattr(self, name, None) *)
Definition getattr (o : operator) (n : string) : value := match attribute o n with Some v => v | None => None_ end.
(** 1622-1628; [same v d] is the truth value of v == d, which may raise (arrays), [is v d] is Python's is *)
Definition is_default (same : value -> value -> result bool) (is_ : value -> value -> bool) (v d : value) : bool :=
  match same v d with Ok b => b | Raise _ => is_ v d end.
(** The loop, 1604-1661: the arguments that are shown, with a name if the parameter has a default *)
Definition shown same is_ (o : operator) (p : parameter) : list (option string * value) :=
  let '(n, k) := p in
  if hidden o n then []
  else
    let v := getattr o n in
    match v with
    | Method => []
    | _ =>
        match k with
        | Default d => if is_default same is_ v d then [] else [(Some n, v)]
        | Required | Variadic => [(None, v)]
        end
    end.
Definition arguments same is_ (o : operator) : list (option string * (string * value)) :=
  flat_map (fun p => map (fun a => (fst a, (fst p, snd a))) (shown same is_ o p)) (parameters o).

(** The texts of the arguments, 1629-1657.  A shape is written by strshape. *)
Definition str_nat (n : nat) : string := NilZero.string_of_uint (Nat.to_uint n).
Fixpoint join (sep : string) (l : list string) : string := match l with [] => "" | [x] => x | x :: l => x ++ sep ++ join sep l end.
Fixpoint times (n : nat) (s : string) : string := match n with O => "" | S n => s ++ times n s end.
Definition tuple (l : list nat) : string := match l with [] => "()" | [x] => "(" ++ str_nat x ++ ",)" | _ => "(" ++ join ", " (map str_nat l) ++ ")" end.
Definition strshape (l : list nat) : string := match l with [] => "()" | [x] => str_nat x | _ => "(" ++ join "," (map str_nat l) ++ ")" end.
Definition text (o : operator) (n : string) (v : value) : result string :=
  if String.eqb n "reshapein" && square o && implicit_out o then Ok "lambda x:x"
  else
    match v with
    | AnOperator => Ok "Operator()"
    | Class c => Ok c
    | Tuple l => Ok (if String.eqb n "shapein" || String.eqb n "shapeout" then strshape l else tuple l)
    | Array c ndim size first last dtype =>
        if (size =? 0)%nat then Raise IndexError
        else Ok (match c with None => "array" | Some c => c end ++ "(" ++ times ndim "[" ++ first
                 ++ (if (1 <? size)%nat then (if (size =? 2)%nat then ", " else ", ..., ") ++ last else "")
                 ++ times ndim "]" ++ ", dtype=" ++ dtype ++ ")")
    | None_ => Ok "None"
    | Method => Ok ""
    | Other r s => Ok (if String.eqb n "dtype" || String.eqb n "commin" || String.eqb n "commout" then s else r)
    end.
Definition argument_text (o : operator) (a : option string * (string * value)) : result string :=
  s <- text o (fst (snd a)) (snd (snd a)) ;; Ok (match fst a with None => s | Some n => n ++ "=" ++ s end).
Fixpoint mapM {A B} (f : A -> result B) (l : list A) : result (list B) :=
  match l with [] => Ok [] | x :: l => y <- f x ;; r <- mapM f l ;; Ok (y :: r) end.
Definition repr same is_ (o : operator) : result string :=
  match name o with
  | None => Ok (class_name o ++ " [not initialized]")
  | Some n => l <- mapM (argument_text o) (arguments same is_ o) ;; Ok (n ++ "(" ++ join ", " l ++ ")")
  end.
