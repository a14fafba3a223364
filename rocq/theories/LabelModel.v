(** The texts of operators that are not composite: core.py, Operator.__str__ (1564-1583), ReshapeOperator.__str__ (3947-3948),
    HomothetyOperator.__str__ (4376-4384); nonlinear.py, the __str__ of the reductions (410-411, 448-449, 486-487, 530-531) and of RoundOperator (751-759); utils/misc.py, strshape (1049-1065). *)
From Coq Require Import List Arith ZArith Ascii String DecimalString DecimalNat.
From Verif Require Import Base.
Import ListNotations.

(** Texts are lists of bytes, in UTF-8. *)
Definition text := list ascii.
Definition lit (s : string) : text := list_ascii_of_string s.
(** str(n) for an integer *)
Definition str_nat (n : nat) : text := lit (NilZero.string_of_uint (Nat.to_uint n)).
Definition str_int (z : Z) : text := if (z <? 0)%Z then lit "-" ++ str_nat (Z.to_nat (- z)) else str_nat (Z.to_nat z).
(** ','.join *)
Fixpoint commas (l : list text) : text := match l with [] => [] | [x] => x | x :: l => x ++ lit "," ++ commas l end.

(** strshape, 1049-1065: the argument broadcast; str of a tuple without its spaces and its quotes *)
Inductive broadcast := Disabled | Leftward | Rightward.
Definition strshape (shape : option (list nat)) (b : broadcast) : text :=
  match shape with
  | None => lit "None"
  | Some s =>
      match s, b with
      | [], Leftward | [], Rightward => lit "(...)"
      | _, _ =>
          let items := match b with Leftward => lit "..." :: map str_nat s | Rightward => map str_nat s ++ [lit "..."] | Disabled => map str_nat s end in
          match items with
          | [] => lit "()"
          | [x] => x
          | _ => lit "(" ++ commas items ++ lit ")"
          end
      end
  end.

(** What is used of an operator: __name__, None if it is not initialised, and the name of its class; the flags linear and square; the explicit shapes *)
Record operator := { name : option text; class_name : text; linear : bool; square : bool; shapein : option (list nat); shapeout : option (list nat) }.
(** name.replace('Operator', '') and lower(), 1579-1582.  [lower] maps the letters A to Z; the other letters of Unicode are left out. *)
Definition lower (a : ascii) : ascii := let n := nat_of_ascii a in if (65 <=? n)%nat && (n <=? 90)%nat then ascii_of_nat (n + 32) else a.
Fixpoint starts (p s : text) : bool := match p, s with [], _ => true | a :: p, b :: s => Ascii.eqb a b && starts p s | _, [] => false end.
Fixpoint remove (fuel : nat) (p s : text) : text :=
  match fuel, s with
  | S f, a :: r => if starts p s then remove f p (skipn (List.length p) s) else a :: remove f p r
  | _, _ => []
  end.
Definition shown_name (n : text) : text := map lower (if list_eq_dec ascii_dec n (lit "Operator") then n else remove (List.length n) (lit "Operator") n).
(** Operator.__str__, 1564-1583; '²' is two bytes *)
Definition str (o : operator) : text :=
  match name o with
  | None => class_name o ++ lit " [not initialized]"
  | Some n =>
      (if linear o && (match shapein o with Some _ => true | None => false end || match shapeout o with Some _ => true | None => false end) then
         let sin := match shapein o with None => lit "?" | s => strshape s Disabled end in
         let sout := match shapeout o with None => lit "?" | s => strshape s Disabled end in
         (if square o && match shapein o with Some s => (1 <? List.length s)%nat | None => false end then sin ++ lit "²" else sout ++ lit "x" ++ sin) ++ lit " "
       else []) ++ shown_name n
  end.

(** ReshapeOperator.__str__, 3947-3948; the arrow is three bytes *)
Definition str_reshape (shapeout shapein : list nat) : text := strshape (Some shapeout) Disabled ++ lit "←" ++ strshape (Some shapein) Disabled.

(** HomothetyOperator.__str__, 4376-4384.  The number is an integer (of any type), a real number that is not, with the text Python gives it, or one of
    the floats for which int raises; complex numbers are left out. *)
Inductive datum := Integer (z : Z) | Real (t : text) | Infinite | NotANumber.
Definition str_homothety (d : datum) : result text :=
  match d with
  | Integer z => Ok (if (z =? 1)%Z then lit "I" else if (z =? -1)%Z then lit "-I" else str_int z ++ lit "I")
  | Real t => Ok (t ++ lit "I")
  | Infinite => Raise (OtherError 1)  (* OverflowError *)
  | NotANumber => Raise ValueError
  end.

(** The reductions.  [axis]: the attribute axis; MinMaxOperator, a BlockColumnOperator, has no such attribute. *)
Inductive attribute := Missing | Axis (a : option Z).
Inductive reduction := ProductOperator | MaxOperator | MinOperator | MinMaxOperator.
Definition reduction_name (r : reduction) : text :=
  match r with ProductOperator => lit "product" | MaxOperator => lit "max" | MinOperator => lit "min" | MinMaxOperator => lit "minmax" end.
(** ReductionOperator.__init__ sets axis (core.py 4639); MinMaxOperator.__init__, nonlinear.py 521-528, does not.  SumOperator has the text of Operator. *)
Definition axis_of (r : reduction) (axis : option Z) : attribute := match r with MinMaxOperator => Missing | _ => Axis axis end.
Definition str_reduction (r : reduction) (axis : option Z) : result text :=
  match axis_of r axis with
  | Missing => Raise AttributeError
  | Axis None => Ok (reduction_name r)
  | Axis (Some k) => Ok (reduction_name r ++ lit "(..., axis=" ++ str_int k ++ lit ")")
  end.

(** RoundOperator.__str__, nonlinear.py 751-759, and the methods of the constructor, 718-729 *)
Inductive rounding_method := rtz | rtmi | rtpi | rhtmi | rhtpi | rhte.
Definition method_text (m : rounding_method) : text :=
  match m with rtz => lit "rtz" | rtmi => lit "rtmi" | rtpi => lit "rtpi" | rhtmi => lit "rhtmi" | rhtpi => lit "rhtpi" | rhte => lit "rhte" end.
Definition same_text (a b : text) : bool := if list_eq_dec ascii_dec a b then true else false.
Definition str_round (m : rounding_method) : text :=
  let s := skipn 1 (method_text m) in
  lit "round_" ++ (if same_text s (lit "rmi") then lit "floor" else if same_text s (lit "tpi") then lit "ceil" else if same_text s (lit "tz") then lit "trunc" else s).
