(** Element-wise non-linear operators: /repo/src/pyoperators/nonlinear.py and /repo/src/pyoperators/utils/ufuncs.c.src.
    The loops of the C file are modelled on a memory whose cells hold one number each: addresses and steps are counted in
    cells and may be negative; a complex number takes two cells.  Numbers are rational (no infinity, NaN, negative zero, no rounding), except in
    the last section. *)
From Coq Require Import QArith Qabs Qround String Ascii.
From Coq Require Import Floats.SpecFloat.
From Verif Require Import Base Algebra.
Close Scope Q_scope. Close Scope string_scope. Local Open Scope Z_scope.

(** ** The loops of ufuncs.c.src *)
Section Loops.
Context {V : Type}.
Definition mem := Z -> V.
Definition upd (m : mem) (p : Z) (v : V) : mem := fun q => if Z.eqb q p then v else m q.

(** hard_thresholding 89-109, soft_thresholding 280-300: two inputs and one output; [f] is what is computed from one
    number of each input. *)
Fixpoint loop2 (f : V -> V -> V) (n : nat) (ip1 is1 ip2 is2 op os : Z) (m : mem) : mem :=
  match n with
  | O => m
  | S n => loop2 f n (ip1 + is1) is1 (ip2 + is2) is2 (op + os) os (upd m op (f (m ip1) (m ip2)))
  end.
(** abs2_real 66-73 *)
Fixpoint loop1 (f : V -> V) (n : nat) (ip is op os : Z) (m : mem) : mem :=
  match n with
  | O => m
  | S n => loop1 f n (ip + is) is (op + os) os (upd m op (f (m ip)))
  end.
(** TYPE_masking 130-160; the mask is a separate array of booleans. *)
Fixpoint masking_inplace (zero : V) (n : nat) (mask : Z -> bool) (mp ms op os : Z) (m : mem) : mem :=
  match n with
  | O => m
  | S n => masking_inplace zero n mask (mp + ms) ms (op + os) os (if mask mp then upd m op zero else m)
  end.
Fixpoint masking_copy (zero : V) (n : nat) (mask : Z -> bool) (ip is mp ms op os : Z) (m : mem) : mem :=
  match n with
  | O => m
  | S n => masking_copy zero n mask (ip + is) is (mp + ms) ms (op + os) os (if mask mp then upd m op zero else upd m op (m ip))
  end.
Definition masking (zero : V) (n : nat) (mask : Z -> bool) (ip is mp ms op os : Z) (m : mem) : mem :=
  if Z.eqb ip op then masking_inplace zero n mask mp ms op os m else masking_copy zero n mask ip is mp ms op os m.
(** the same on complex numbers, 164-193: both parts are written *)
Fixpoint cmasking_inplace (zero : V) (n : nat) (mask : Z -> bool) (mp ms op os : Z) (m : mem) : mem :=
  match n with
  | O => m
  | S n => cmasking_inplace zero n mask (mp + ms) ms (op + os) os (if mask mp then upd (upd m op zero) (op + 1) zero else m)
  end.
Fixpoint cmasking_copy (zero : V) (n : nat) (mask : Z -> bool) (ip is mp ms op os : Z) (m : mem) : mem :=
  match n with
  | O => m
  | S n => cmasking_copy zero n mask (ip + is) is (mp + ms) ms (op + os) os
             (if mask mp then upd (upd m op zero) (op + 1) zero else let re := m ip in let im := m (ip + 1) in upd (upd m op re) (op + 1) im)
  end.
Definition cmasking (zero : V) (n : nat) (mask : Z -> bool) (ip is mp ms op os : Z) (m : mem) : mem :=
  if Z.eqb ip op then cmasking_inplace zero n mask mp ms op os m else cmasking_copy zero n mask ip is mp ms op os m.
End Loops.
Arguments mem : clear implicits.

Section Complex.
Context {K : cring}.
(** abs2 56-64: the input is complex, the output is real *)
Fixpoint abs2 (n : nat) (ip is op os : Z) (m : mem K) : mem K :=
  match n with
  | O => m
  | S n => let inr := m ip in let ini := m (ip + 1) in
      abs2 n (ip + is) is (op + os) os (upd m op (radd (rmul inr inr) (rmul ini ini)))
  end.
Definition abs2_real : nat -> Z -> Z -> Z -> Z -> mem K -> mem K := loop1 (fun x => rmul x x).
(** multiply_conjugate 249-262 *)
Fixpoint multiply_conjugate (n : nat) (ip1 is1 ip2 is2 op os : Z) (m : mem K) : mem K :=
  match n with
  | O => m
  | S n =>
      let in1r := m ip1 in let in1i := m (ip1 + 1) in let in2r := m ip2 in let in2i := m (ip2 + 1) in
      multiply_conjugate n (ip1 + is1) is1 (ip2 + is2) is2 (op + os) os
        (upd (upd m op (radd (rmul in1r in2r) (rmul in1i in2i))) (op + 1) (radd (rmul (ropp in1r) in2i) (rmul in1i in2r)))
  end.
End Complex.

(** ** What is computed from one number *)
Local Open Scope Q_scope.
Definition gtb (x y : Q) : bool := negb (Qle_bool x y).
(** ufuncs.c.src 101-103 *)
Definition hard (x a : Q) : Q := if gtb (Qabs x) a then x else 0.
(** ufuncs.c.src 292-294 *)
Definition copysign (t x : Q) : Q := if gtb 0 x then - Qabs t else Qabs t.
Definition soft (x a : Q) : Q := let tmp := Qabs x - a in let tmp := if gtb tmp 0 then tmp else 0 in copysign tmp x.
Definition hard_thresholding : nat -> Z -> Z -> Z -> Z -> Z -> Z -> mem Q -> mem Q := loop2 hard.
Definition soft_thresholding : nat -> Z -> Z -> Z -> Z -> Z -> Z -> mem Q -> mem Q := loop2 soft.
(** np.maximum, np.minimum, np.clip (nonlinear.py 565-566, 607-608, 271-272); NumPy's clip takes the maximum with the lower limit, then
    the minimum with the upper one. *)
Definition qmax (x y : Q) : Q := if gtb y x then y else x.
Definition qmin (x y : Q) : Q := if gtb x y then y else x.
Definition clip (lo hi x : Q) : Q := qmin (qmax x lo) hi.
(** RoundOperator, nonlinear.py 716-750: np.trunc, np.floor, np.ceil, _direct_rhtmi, _direct_rhtpi, np.round *)
Definition floor (x : Q) : Q := inject_Z (Qfloor x).
Definition ceil (x : Q) : Q := inject_Z (Qceiling x).
Definition trunc (x : Q) : Q := if gtb 0 x then ceil x else floor x.
Definition rhtmi (x : Q) : Q := ceil (x + (1 # 2)) + -1.
Definition rhtpi (x : Q) : Q := floor (x + - (1 # 2)) + 1.
Definition rhte (x : Q) : Q :=
  let f := Qfloor x in
  if gtb (1 # 2) (x - inject_Z f) then inject_Z f
  else if gtb (x - inject_Z f) (1 # 2) then inject_Z (f + 1)
  else if Z.even f then inject_Z f else inject_Z (f + 1).
Definition lower_ascii (c : ascii) : ascii := let n := nat_of_ascii c in if (Nat.leb 65 n && Nat.leb n 90)%bool then ascii_of_nat (n + 32) else c.
Fixpoint lower (s : string) : string := match s with EmptyString => EmptyString | String c s => String (lower_ascii c) (lower s) end.
(** __init__, 716-735: the dictionary of the methods *)
Definition round_table : list (string * (Q -> Q)) :=
  [("rtz", trunc); ("rtmi", floor); ("rtpi", ceil); ("rhtmi", rhtmi); ("rhtpi", rhtpi); ("rhte", rhte)]%string.
Fixpoint assoc {A} (s : string) (l : list (string * A)) : option A :=
  match l with [] => None | (t, a) :: l => if String.eqb s t then Some a else assoc s l end.
Definition round_operator (method : string) : result (Q -> Q) :=
  match assoc (lower method) round_table with Some f => Ok f | None => Raise ValueError end.
(** __str__, 751-759 *)
Definition round_str (method : string) : string :=
  let method := match method with EmptyString => EmptyString | String _ s => s end in
  ("round_" ++ (if String.eqb method "rmi" then "floor" else if String.eqb method "tpi" then "ceil" else if String.eqb method "tz" then "trunc" else method))%string.

(** ** The thresholding operators, nonlinear.py 766-850.  The threshold is a scalar or an array, given by its elements. *)
Inductive threshold_op := TIdentity | THard (a : list Q) | TSoft (a : list Q).
Definition make_threshold (cls : list Q -> threshold_op) (a : list Q) : result threshold_op :=
  if existsb (fun v => gtb 0 v) a then Raise ValueError else if forallb (fun v => Qeq_bool v 0) a then Ok TIdentity else Ok (cls a).
Definition at_ (a : list Q) (i : nat) : Q := match a with [v] => v | _ => nth i a 0 end.
Definition apply_threshold (op : threshold_op) (x : nat -> Q) : nat -> Q := fun i =>
  match op with TIdentity => x i | THard a => hard (x i) (at_ a i) | TSoft a => soft (x i) (at_ a i) end.
(** the rule for a product of two hard thresholdings, 794-798; np.maximum broadcasts its arguments: here scalars and
    arrays of the same length *)
Definition maximum (a b : list Q) : list Q :=
  match a, b with
  | [v], _ => map (fun w => qmax v w) b
  | _, [w] => map (fun v => qmax v w) a
  | _, _ => map (fun p => qmax (fst p) (snd p)) (combine a b)
  end.
Definition rule_hard (a b : list Q) : result threshold_op := make_threshold THard (maximum a b).

(** ** _direct_rhtmi and _direct_rhtpi (737-750) in IEEE double precision: np.add rounds to the nearest, ties to even. *)
Local Open Scope Z_scope.
Definition dadd : spec_float -> spec_float -> spec_float := SFadd 53 1024.
Definition of_Z (z : Z) : spec_float := binary_normalize 53 1024 z 0 false.
Definition dhalf : spec_float := binary_normalize 53 1024 1 (-1) false.
Definition dfloor (x : spec_float) : spec_float :=
  match x with
  | S754_finite s m e => if 0 <=? e then x else of_Z ((if s then Zneg m else Zpos m) / 2 ^ (- e))
  | _ => x
  end.
Definition dceil (x : spec_float) : spec_float := SFopp (dfloor (SFopp x)).
Definition drhtmi (x : spec_float) : spec_float := dadd (dceil (dadd x dhalf)) (of_Z (-1)).
Definition drhtpi (x : spec_float) : spec_float := dadd (dfloor (dadd x (SFopp dhalf))) (of_Z 1).
