(** The construction of an iterative algorithm from the keywords of its constructor, iterative/core.py 90-435.  A keyword is a list of
    ASCII characters (identifiers with other characters, and keywords with line feeds, are not modelled). *)
From Coq Require Import Ascii String Decimal.
From Verif Require Import Base.

Definition name := list ascii.
Definition lit (s : string) : name := list_ascii_of_string s.

(** The kind and the number of bits of a dtype; Object for everything that is neither a number nor a complex number *)
Inductive kind := Float | Complex | Integer | Object.
Record dtype := { d_kind : kind; d_bits : nat }.
(** A keyword is an initial value, of which only the shape and the kind matter here, or a dtype. *)
Inductive arg := Value (shape : list nat) (k : kind) | Type_ (d : dtype).
Definition keywords := list (name * arg).

Definition eqb_name (a b : name) : bool := if list_eq_dec ascii_dec a b then true else false.
Definition lookup (n : name) (kws : keywords) : option arg := option_map snd (find (fun x => eqb_name (fst x) n) kws).
Definition given (n : name) (kws : keywords) : bool := existsb (fun x => eqb_name (fst x) n) kws.

(** str(n) *)
Fixpoint chars (d : uint) : name :=
  match d with
  | Nil => []
  | D0 d => "0"%char :: chars d | D1 d => "1"%char :: chars d | D2 d => "2"%char :: chars d | D3 d => "3"%char :: chars d
  | D4 d => "4"%char :: chars d | D5 d => "5"%char :: chars d | D6 d => "6"%char :: chars d | D7 d => "7"%char :: chars d
  | D8 d => "8"%char :: chars d | D9 d => "9"%char :: chars d
  end.
Definition str (n : nat) : name := chars (Nat.to_uint n).

(** str.startswith, str.endswith *)
Fixpoint startswith (s k : name) : bool :=
  match s, k with
  | [], _ => true
  | a :: s', b :: k' => if ascii_dec a b then startswith s' k' else false
  | _ :: _, [] => false
  end.
Definition endswith (s k : name) : bool := startswith (rev s) (rev k).

(** _set_order, 395-402.  The while loop ends since a keyword cannot end with '_old2' and '_old3': the number of keywords bounds the
    number of turns. *)
Fixpoint raise_order (fuel order : nat) (names : list name) : nat :=
  match fuel with
  | 0 => order
  | S fuel' => if existsb (endswith (lit "_old" ++ str order)) names then raise_order fuel' (S order) names else order
  end.
Definition set_order (names : list name) : nat :=
  if existsb (endswith (lit "_old")) names then raise_order (length names) 2 names else 1.

(** _get_suffix, 289-303 *)
Definition get_suffix (inplace : bool) (order : nat) : list name :=
  if inplace then [[]]
  else
    let suffix := [lit "_new"; []] in
    if Nat.eqb order 1 then suffix
    else
      let suffix := suffix ++ [lit "_old"] in
      if Nat.eqb order 2 then suffix else suffix ++ map (fun o => lit "_old" ++ str (o - 1)) (seq 3 (order + 1 - 3)).

(** The regular expression of 415: no character of the keyword begins one of the suffixes _old, _old2..., _new and _dtype. *)
Definition is_digit (c : ascii) : bool := Nat.leb 48 (nat_of_ascii c) && Nat.leb (nat_of_ascii c) 57.
Definition is_suffix (t : name) : bool :=
  (startswith (lit "_old") t && forallb is_digit (skipn 4 t)) || eqb_name t (lit "_new") || eqb_name t (lit "_dtype").
Fixpoint is_variable (k : name) : bool :=
  match k with [] => true | _ :: k' => negb (is_suffix k) && is_variable k' end.

(** list.sort *)
Fixpoint leb_name (a b : name) : bool :=
  match a, b with
  | [], _ => true
  | _ :: _, [] => false
  | x :: a', y :: b' => if Nat.ltb (nat_of_ascii x) (nat_of_ascii y) then true
                        else if Nat.eqb (nat_of_ascii x) (nat_of_ascii y) then leb_name a' b' else false
  end.
Fixpoint insert (a : name) (l : list name) : list name :=
  match l with [] => [a] | b :: l' => if leb_name a b then a :: l else b :: insert a l' end.
Definition sort (l : list name) : list name := fold_right insert [] l.

(** _set_variables, 413-424: the initial values of the variables must be specified. *)
Definition set_variables (inplace : bool) (order : nat) (kws : keywords) : result (list name) :=
  let variables := sort (filter is_variable (map fst kws)) in
  let suffix := get_suffix inplace order in
  if existsb (fun var => existsb (fun s => negb (eqb_name s (lit "_new")) && negb (given (var ++ s) kws)) suffix) variables
  then Raise ValueError
  else Ok variables.

(** 359-360: np.dtype('complex' + str(2 * int(dtype.name[5:]))), which exists for single, double and extended precision only *)
Definition complex_of (d : dtype) : result dtype :=
  if existsb (Nat.eqb (d_bits d)) [32; 64; 128] then Ok {| d_kind := Complex; d_bits := 2 * d_bits d |} else Raise TypeError.
Definition shape_of (a : arg) : list nat := match a with Value sh _ => sh | Type_ _ => [] end.
Definition kind_of (a : arg) : kind := match a with Value _ k => k | Type_ _ => Object end.
Definition is_float (k : kind) : bool := match k with Float => true | _ => false end.
Definition is_complex (k : kind) : bool := match k with Complex => true | _ => false end.
(** 351-362: the shapes of the initial values and the dtype *)
Fixpoint initial_values (fixed : bool) (d : dtype) (names : list name) (kws : keywords) : result (list (list nat) * dtype) :=
  match names with
  | [] => Ok ([], d)
  | n :: names' =>
      match lookup n kws with
      | None => Raise KeyError
      | Some val =>
          d' <- (if negb fixed && is_float (d_kind d) && is_complex (kind_of val) then complex_of d else Ok d) ;;
          r <- initial_values fixed d' names' kws ;;
          Ok (shape_of val :: fst r, snd r)
      end
  end.
Definition eqb_shape (a b : list nat) : bool := if list_eq_dec Nat.eq_dec a b then true else false.

(** An entry of the attribute info: the variable, its names, shape and dtype *)
Record entry := { e_variable : name; e_names : list name; e_shape : list nat; e_dtype : dtype }.
(** 345-373 for one variable.  (np.dtype of something that is not a dtype raises TypeError.) *)
Definition variable_entry (inplace : bool) (suffix : list name) (kws : keywords) (default : dtype) (var : name) : result entry :=
  let names := map (fun s => var ++ s) suffix in
  fixed <- match lookup (var ++ lit "_dtype") kws with
           | None => Ok None
           | Some (Type_ d) => Ok (Some d)
           | Some (Value _ _) => Raise TypeError
           end ;;
  let d := match fixed with Some d => d | None => default end in
  r <- initial_values (match fixed with Some _ => true | None => false end) d (skipn (if inplace then 0 else 1) names) kws ;;
  let shape := hd [] (fst r) in
  if existsb (fun s => negb (eqb_shape s shape)) (tl (fst r)) then Raise ValueError
  else Ok {| e_variable := var; e_names := names; e_shape := shape; e_dtype := snd r |}.
Fixpoint collect {A B} (f : A -> result B) (l : list A) : result (list B) :=
  match l with [] => Ok [] | a :: l' => b <- f a ;; r <- collect f l' ;; Ok (b :: r) end.

(** __init__, 144-154, without the buffers, which IterModel has (in particular the check that two initial values to be reused are not
    the same buffer), the callback and the stop conditions *)
Record algorithm := { a_order : nat; a_info : list entry; a_niterations : nat }.
Definition construct (inplace : bool) (default : dtype) (kws : keywords) : result algorithm :=
  let order := set_order (map fst kws) in
  variables <- set_variables inplace order kws ;;
  info <- collect (variable_entry inplace (get_suffix inplace order) kws default) variables ;;
  Ok {| a_order := order; a_info := info; a_niterations := order - 1 |}.

(** callback, 159-170: the names whose values are printed at each iteration if disp is set.  With several variables and a recursion that
    is not in place, the dictionary is not assigned to current, whose use raises UnboundLocalError. *)
Definition display (inplace : bool) (a : algorithm) : result (list name) :=
  let variables := map e_variable (a_info a) in
  if inplace then Ok variables
  else if Nat.eqb (length variables) 1 then Ok (map (fun v => v ++ lit "_new") variables)
  else Raise (OtherError 0).
