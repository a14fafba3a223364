(** The texts of operators: core.py, CompositeOperator.__str__ (1770-1802), CompositionOperator.__str__ (2787-2821),
    BlockColumnOperator.__str__ (3804-3808), BlockRowOperator.__str__ (3900-3904). *)
From Coq Require Import Ascii String.
From Verif Require Import Base.
Local Open Scope nat_scope.

(** Texts are lists of bytes, in UTF-8. *)
Definition text := list ascii.
Definition lit (s : string) : text := list_ascii_of_string s.

(** str.join *)
Fixpoint join (sep : text) (l : list text) : text :=
  match l with [] => [] | [x] => x | x :: l => x ++ sep ++ join sep l end.
(** p in s *)
Fixpoint starts (p s : text) : bool :=
  match p, s with [], _ => true | a :: p, b :: s => Ascii.eqb a b && starts p s | _, [] => false end.
Fixpoint contains (p s : text) : bool := starts p s || match s with [] => false | _ :: s => contains p s end.
(** s.replace('...', new) *)
Fixpoint replace_dots (new s : text) : text :=
  match s with
  | [] => []
  | a :: s' =>
      match s' with
      | b :: c :: r => if Ascii.eqb a "." && Ascii.eqb b "." && Ascii.eqb c "." then new ++ replace_dots new r else a :: replace_dots new s'
      | _ => a :: replace_dots new s'
      end
  end.

(** Operators: those which are not composite are given by their flag linear and by what their own __str__ returns; the other kinds of
    composites are left out. *)
Inductive kind := Addition | Multiplication | Composition | BlockDiagonal | BlockColumn | BlockRow.
Inductive operator := Atom (linear : bool) (str : result text) | Composite (k : kind) (operands : list operator).

(** The flag linear: a MultiplicationOperator is never linear, and a BlockRowOperator always is (C12) *)
Fixpoint is_linear (o : operator) : bool :=
  match o with
  | Atom b _ => b
  | Composite k l =>
      match k with Multiplication => false | BlockRow => true | _ => (fix all l := match l with [] => true | o :: l => is_linear o && all l end) l end
  end.
Definition is_addition (o : operator) : bool := match o with Composite Addition _ => true | _ => false end.
Definition is_block_diagonal (o : operator) : bool := match o with Composite BlockDiagonal _ => true | _ => false end.

Definition parenthesize (s : text) : text := lit "(" ++ s ++ lit ")".
(** 1770-1802, for AdditionOperator, MultiplicationOperator and BlockDiagonalOperator.  The special case for HomothetyOperator is never
    reached, because CompositionOperator has its own __str__. *)
Definition protect (o : operator) (s : text) : text := if is_addition o || is_block_diagonal o then parenthesize s else s.
Definition elide (l : list text) : list text := if Nat.ltb 2 (length l) then [hd [] l; lit "..."; last l []] else l.

(** itertools.groupby by the flag linear, 2792-2794 *)
Fixpoint groups (l : list (bool * text)) : list (bool * list text) :=
  match l with
  | [] => []
  | (b, t) :: l =>
      match groups l with
      | (b', g) :: gs => if Bool.eqb b b' then (b, t :: g) :: gs else (b, [t]) :: (b', g) :: gs
      | [] => [(b, [t])]
      end
  end.
Definition is_empty (s : text) : bool := match s with [] => true | _ => false end.
(** 2807-2820, for one operator that is not linear *)
Definition apply_nonlinear (s s_op : text) : text :=
  if is_empty s then s_op
  else if negb (contains (lit "...") s_op) then s_op ++ parenthesize s
  else
    let protected := contains (lit "...,") s_op || contains (lit ", ...") s_op in
    let need_protection := contains (lit " ") s in
    if negb protected && need_protection then replace_dots (parenthesize s) s_op else replace_dots s s_op.
(** 2795-2806, for a group *)
Definition apply_group (s : text) (g : bool * list text) : text :=
  if fst g then
    let s_group := join (lit " * ") (rev (snd g)) in
    if is_empty s then s_group
    else if Nat.ltb 1 (length (snd g)) || contains (lit " ") s_group then parenthesize s_group ++ parenthesize s
    else s_group ++ parenthesize s
  else fold_left apply_nonlinear (snd g) s.
Definition show_composition (l : list (bool * text)) : text := fold_left apply_group (groups (rev l)) [].

Definition show (k : kind) (operands : list operator) (texts : list text) : text :=
  match k with
  | Addition => join (lit " + ") (map (fun p => protect (fst p) (snd p)) (combine operands texts))
  | Multiplication => join (lit " × ") (map (fun p => protect (fst p) (snd p)) (combine operands texts))
  | BlockDiagonal => join (lit " ⊕ ") (elide (map (fun p => protect (fst p) (snd p)) (combine operands texts)))
  | Composition => show_composition (combine (map is_linear operands) texts)
  | BlockColumn => lit "[ " ++ join (lit " ") (elide (map (fun s => lit "[" ++ s ++ lit "]") texts)) ++ lit " ]"
  | BlockRow => lit "[[ " ++ join (lit " ") (elide texts) ++ lit " ]]"
  end.
(** str(o).  The texts of all operands are computed; the only exceptions are TypeErrors, so their order is not modelled. *)
Fixpoint str (o : operator) : result text :=
  match o with
  | Atom _ t => t
  | Composite k l =>
      texts <- (fix each l := match l with [] => Ok [] | o :: l => t <- str o ;; ts <- each l ;; Ok (t :: ts) end) l ;;
      Ok (show k l texts)
  end.

(** SquareOperator.__str__, nonlinear.py 376-377, returns bytes, which str() refuses. *)
Definition square : operator := Atom false (Raise TypeError).
(** PowerOperator(n), nonlinear.py 340-341; ClipOperator, 278-279; ReciprocalOperator, 353-354 *)
Definition power (n : string) : operator := Atom false (Ok (lit "...**" ++ lit n)).
Definition clip (a b : string) : operator := Atom false (Ok (lit "clip(..., " ++ lit a ++ lit ", " ++ lit b ++ lit ")")).
Definition reciprocal : operator := Atom false (Ok (lit "1/...")).
