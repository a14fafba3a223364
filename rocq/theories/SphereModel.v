(** Conversions between cartesian and spherical coordinates: nonlinear.py, 45-229, and the conversions of angles of linear.py, 77-91 and 960-974.

    The numbers are the real numbers of Coq's library: rounding, NaN and infinities are left out, and pi(dtype) is the number pi.  numpy's arccos, cos and sin are those of the library; arctan2 is defined below from the arctangent.
    An array is its shape and its elements in C order. *)
From Coq Require Import Reals Ratan Ascii String.
From Verif Require Import Base.
Local Open Scope R_scope.

(** convention.replace(' ', '').lower() (56) on ASCII strings *)
Definition lower_char (c : ascii) : ascii := let n := nat_of_ascii c in if ((65 <=? n) && (n <=? 90))%nat then ascii_of_nat (n + 32) else c.
Fixpoint normalise (s : string) : string :=
  match s with
  | EmptyString => EmptyString
  | String c s => if (nat_of_ascii c =? 32)%nat then normalise s else String (lower_char c) (normalise s)
  end.
(** CONVENTIONS, 47-52 *)
Definition CONVENTIONS : list string := ["zenith,azimuth"; "azimuth,zenith"; "elevation,azimuth"; "azimuth,elevation"]%string.
(** __init__, 54-62; None is an argument that is not a string *)
Definition convention_of (c : option string) : result string :=
  match c with
  | None => Raise TypeError
  | Some c => if existsb (String.eqb (normalise c)) CONVENTIONS then Ok (normalise c) else Raise ValueError
  end.
(** convention.startswith('azimuth') (145, 220) and 'elevation' in convention (150, 224) *)
Definition azimuth_first (c : string) : bool := prefix "azimuth" c.
Definition has_elevation (c : string) : bool := match index 0 "elevation" c with Some _ => true | None => false end.

(** np.arctan2 *)
Definition arctan2 (y x : R) : R :=
  if Rlt_dec 0 x then atan (y / x)
  else if Rlt_dec x 0 then (if Rle_dec 0 y then atan (y / x) + PI else atan (y / x) - PI)
  else if Rlt_dec 0 y then PI / 2 else if Rlt_dec y 0 then - (PI / 2) else 0.

(** Cartesian2SphericalOperator.direct, 144-157, for one vector *)
Definition c2s_point (c : string) (v : R * R * R) : R * R :=
  let '(x, y, z) := v in
  let o1 := acos z in
  let o1 := if has_elevation c then PI / 2 - o1 else o1 in
  let o2 := arctan2 y x in
  let o2 := if Rlt_dec o2 0 then o2 + 2 * PI else o2 in
  if azimuth_first c then (o2, o1) else (o1, o2).
(** Spherical2CartesianOperator.direct, 219-229, for one pair of angles *)
Definition s2c_point (c : string) (a : R * R) : R * R * R :=
  let '(theta, phi) := if azimuth_first c then (snd a, fst a) else a in
  let theta := if has_elevation c then 0.5 * PI - theta else theta in
  let sintheta := sin theta in
  (sintheta * cos phi, sintheta * sin phi, cos theta).

Definition array := (list nat * list R)%type.
(** input[..., 0], input[..., 1], ...: the elements by groups *)
Fixpoint points3 (l : list R) : list (R * R * R) := match l with x :: y :: z :: l => (x, y, z) :: points3 l | _ => [] end.
Fixpoint points2 (l : list R) : list (R * R) := match l with x :: y :: l => (x, y) :: points2 l | _ => [] end.
Definition flat3 (l : list (R * R * R)) : list R := flat_map (fun '(x, y, z) => [x; y; z]) l.
Definition flat2 (l : list (R * R)) : list R := flat_map (fun '(x, y) => [x; y]) l.

(** The operators involved: the two conversions, and the homotheties DegreesOperator (linear.py, 89-90) and RadiansOperator (972-973) *)
Inductive op := C2S (c : string) | S2C (c : string) | Degrees | Radians.
(** 64-70: the shapes, shape[:-1] + (2,) or (3,); 72-80: ValueError if the last dimension is wrong (validatein, before) *)
Definition valid_last (n : nat) (s : list nat) : bool := match s with [] => false | _ => (last s 0 =? n)%nat end.
Definition reshape (o : op) (s : list nat) : list nat := match o with C2S _ => removelast s ++ [2%nat] | S2C _ => removelast s ++ [3%nat] | _ => s end.
Definition validate (o : op) (s : list nat) : bool := match o with C2S _ => valid_last 3 s | S2C _ => valid_last 2 s | _ => true end.
(** The operator called with an array *)
Definition call (o : op) (x : array) : result array :=
  let (s, l) := x in
  if validate o s then
    Ok (reshape o s, match o with
                     | C2S c => flat2 (map (c2s_point c) (points3 l))
                     | S2C c => flat3 (map (s2c_point c) (points2 l))
                     | Degrees => map (fun v => 180 / PI * v) l
                     | Radians => map (fun v => PI / 180 * v) l
                     end)
  else Raise ValueError.
(** A product, the last operand being applied first *)
Definition call_product (l : list op) (x : array) : result array := fold_right (fun o r => y <- r ;; call o y) (Ok x) l.

(** The constructors, 109-143 and 184-218: with degrees, a product by DegreesOperator on the left, or RadiansOperator on the right *)
Definition Cartesian2Spherical (c : option string) (degrees : bool) : result (list op) := c <- convention_of c ;; Ok (if degrees then [Degrees; C2S c] else [C2S c]).
Definition Spherical2Cartesian (c : option string) (degrees : bool) : result (list op) := c <- convention_of c ;; Ok (if degrees then [S2C c; Radians] else [S2C c]).
(** The rules 'I' (138, 213; linear.py, 91 and 974), and that of a product (core.py) *)
Definition inverse1 (o : op) : op := match o with C2S c => S2C c | S2C c => C2S c | Degrees => Radians | Radians => Degrees end.
Definition inverse (l : list op) : list op := rev (map inverse1 l).
(** The rule for the product of two operands, 82-85, 139-141 and 214-216: Some [] if it is replaced by the identity.  (Those of the homotheties, whose factors are multiplied, are in C10 and C12.) *)
Definition rule (s o : op) : option (list op) :=
  match s, o with
  | C2S c, S2C c' | S2C c, C2S c' => if String.eqb c c' then Some [] else None
  | _, _ => None
  end.
