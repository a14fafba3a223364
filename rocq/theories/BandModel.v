(** Tridiagonal and band operators: linear.py 1341-1701.  Vectors are lists over a commutative ring with decidable
    equality ([deq] stands for np.allclose, without its tolerance); [conj] is np.conj.  The vectors given to direct have the
    size of the operator (its input shape is explicit, see ShapeModel.v). *)
From Verif Require Import Base Algebra DiagModel.
Local Open Scope nat_scope.

Section Band.
Context {K : dring}.
Notation vec := (list K).

(** ** numpy on one-dimensional arrays *)

(** l[j:] and l[:-j] *)
Definition from (j : nat) (l : vec) : vec := skipn j l.
Definition upto (j : nat) (l : vec) : vec := if Nat.eqb j 0 then [] else firstn (length l - j) l.
Definition map2 {A B C} (f : A -> B -> C) (u : list A) (v : list B) : list C := map (fun p => f (fst p) (snd p)) (combine u v).
(** u * v *)
Definition bmul (u v : vec) : result vec :=
  if Nat.eqb (length u) (length v) then Ok (map2 rmul u v)
  else match u, v with
  | [a], _ => Ok (map (fun b => rmul a b) v)
  | _, [b] => Ok (map (fun a => rmul a b) u)
  | _, _ => Raise ValueError
  end.
(** w += v *)
Definition iadd (w v : vec) : result vec :=
  if Nat.eqb (length w) (length v) then Ok (map2 radd w v)
  else match v with [b] => Ok (map (fun a => radd a b) w) | _ => Raise ValueError end.
(** the value of w after w[:] = v *)
Definition iset (w v : vec) : result vec :=
  if Nat.eqb (length w) (length v) then Ok v
  else match v with [b] => Ok (map (fun _ => b) w) | _ => Raise ValueError end.
(** out[j:] += v, out[:-j] += v *)
Definition add_from (j : nat) (out v : vec) : result vec := r <- iadd (from j out) v ;; Ok (firstn j out ++ r).
Definition add_upto (j : nat) (out v : vec) : result vec :=
  r <- iadd (upto j out) v ;; Ok (if Nat.eqb j 0 then out else r ++ skipn (length out - j) out).

(** ** TridiagonalOperator *)
Record tri := T { t_diag : vec; t_sub : vec; t_sup : vec }.

(** __init__, 1342-1414 (the number of dimensions is one) *)
Definition size_ok (v : vec) (n : nat) : bool := Nat.eqb (length v) 1 || Nat.eqb (S (length v)) n.
Definition make_tri (conj : K -> K) (diag sub : vec) (sup : option vec) : result tri :=
  let n := length diag in
  if negb (size_ok sub n) then Raise ValueError
  else match sup with
  | Some s => if negb (size_ok s n) then Raise ValueError else Ok (T diag sub s)
  | None => Ok (T diag sub (map conj sub))
  end.
(** np.allclose of arrays of sizes 1 or n - 1 *)
Definition allclose (u v : vec) : bool :=
  if Nat.eqb (length u) (length v) then forallb (fun p => deq (fst p) (snd p)) (combine u v)
  else match u, v with
  | [a], _ => forallb (deq a) v
  | _, [b] => forallb (fun a => deq a b) u
  | _, _ => false (* a ValueError, which the sizes exclude *)
  end.
(** The flags, 1401-1406: the imaginary part of a number that is its own conjugate is zero. *)
Definition tri_symmetric (t : tri) : bool := allclose (t_sub t) (t_sup t).
Definition tri_hermitian (conj : K -> K) (t : tri) : bool :=
  forallb (fun d => deq d (conj d)) (t_diag t) && allclose (t_sub t) (map conj (t_sup t)).
(** The rules 'T', 'C' and 'H', 1411-1427 (the method transpose is not used because of the rule; it assigns its result to
    a local variable) *)
Definition tri_T (conj : K -> K) (t : tri) : result tri := make_tri conj (t_diag t) (t_sup t) (Some (t_sub t)).
Definition tri_C (conj : K -> K) (t : tri) : result tri := make_tri conj (map conj (t_diag t)) (map conj (t_sub t)) (Some (map conj (t_sup t))).
Definition tri_H (conj : K -> K) (t : tri) : result tri := make_tri conj (map conj (t_diag t)) (map conj (t_sup t)) (Some (map conj (t_sub t))).
(** direct, 1429-1432 *)
Definition tri_direct (t : tri) (x : vec) : result vec :=
  out <- bmul (t_diag t) x ;;
  v <- bmul (t_sup t) (from 1 x) ;;
  out <- add_upto 1 out v ;;
  w <- bmul (t_sub t) (upto 1 x) ;;
  add_from 1 out w.
(** the method transpose, 1434-1437: the content of [out] when it returns *)
Definition tri_transpose_method (t : tri) (x out : vec) : result vec :=
  local <- bmul (t_diag t) x ;;
  v <- bmul (t_sub t) (from 1 x) ;;
  local <- add_upto 1 local v ;;
  w <- bmul (t_sup t) (upto 1 x) ;;
  _ <- add_from 1 local w ;;
  Ok out.
(** todense, 1445-1451: a matrix is given by its size and its elements.  np.diag(v, k) has len(v) + |k| rows. *)
Definition np_diag (v : vec) (up down : nat) : nat * (nat -> nat -> K) :=
  (length v + up + down, fun i j => if Nat.eqb (i + up) (j + down) then nth (i - down) v r0 else r0).
Definition dense_add (n : nat) (out : nat -> nat -> K) (m : nat * (nat -> nat -> K)) : result (nat -> nat -> K) :=
  if Nat.eqb (fst m) n then Ok (fun i j => radd (out i j) (snd m i j))
  else if Nat.eqb (fst m) 1 then Ok (fun i j => radd (out i j) (snd m 0 0))
  else Raise ValueError.
Definition tri_todense (t : tri) : result (nat -> nat -> K) :=
  let n := length (t_diag t) in
  out <- dense_add n (fun _ _ => r0) (np_diag (t_diag t) 0 0) ;;
  out <- dense_add n out (np_diag (t_sub t) 0 1) ;;
  dense_add n out (np_diag (t_sup t) 1 0).

(** ** BandOperator.  ab is the list of its rows. *)
Record band := B { b_ab : list vec; b_kl : nat; b_ku : nat }.
Definition row (ab : list vec) (i : nat) : result vec := match nth_error ab i with Some r => Ok r | None => Raise IndexError end.

(** direct, 1538-1547 *)
Definition band_upper (ab : list vec) (ku : nat) (x : vec) (out : result vec) (i : nat) : result vec :=
  out <- out ;;
  let j := ku - i in
  r <- row ab i ;;
  v <- bmul (from j r) (from j x) ;;
  add_upto j out v.
Definition band_lower (ab : list vec) (x : vec) (out : result vec) (i : nat) : result vec :=
  out <- out ;;
  r <- row ab (i + 1) ;;
  v <- bmul (upto i r) (upto i x) ;;
  add_from i out v.
Definition band_direct (b : band) (x : vec) : result vec :=
  let '(B ab kl ku) := b in
  let out := (r <- row ab ku ;; bmul r x) in
  let out := fold_left (band_upper ab ku x) (seq 0 ku) out in
  fold_left (band_lower ab x) (seq ku kl) out.
(** transpose, 1549-1560: the attribute _rab does not exist. *)
Definition band_transpose (b : band) (x : vec) : result vec := Raise AttributeError.

(** _band_diag, 1587-1599: the row and the columns of the i-th diagonal; a row is there a slice, always inside ab when ab has
    kl + ku + 1 rows. *)
Definition band_row (ku : nat) (i : Z) : nat := Z.to_nat (Z.of_nat ku - i).
Definition band_get (i : Z) (r : vec) : vec :=
  if Z.eqb i 0 then r else if Z.ltb 0 i then skipn (Z.to_nat i) r else firstn (length r - Z.to_nat (- i)) r.
Definition band_put (i : Z) (r v : vec) : vec :=
  if Z.eqb i 0 then v else if Z.ltb 0 i then firstn (Z.to_nat i) r ++ v else v ++ skipn (length r - Z.to_nat (- i)) r.
Fixpoint update {A} (l : list A) (k : nat) (f : A -> A) : list A :=
  match l, k with [], _ => [] | a :: l', O => f a :: l' | a :: l', S k' => a :: update l' k' f end.
(** diag, 1566-1571, and rab, 1573-1584 *)
Definition band_diag (b : band) (i : Z) : vec := band_get i (nth (band_row (b_ku b) i) (b_ab b) []).
Definition band_rab (b : band) : list vec :=
  fold_left (fun rab i => update rab (band_row (b_kl b) (- i)) (fun r => band_put (- i) r (band_diag b i)))
    (map (fun k => Z.of_nat k - Z.of_nat (b_kl b))%Z (seq 0 (b_kl b + b_ku b + 1)))
    (map (fun r => map (fun _ => r0) r) (b_ab b)).

(** LowerTriangularOperator, UpperTriangularOperator, 1602-1621 *)
Definition lower_triangular (ab : list vec) : band := B ab (length ab - 1) 0.
Definition upper_triangular (ab : list vec) : band := B ab 0 (length ab - 1).

(** ** SymmetricBandOperator.direct, 1642-1648: the attribute lower is not used. *)
Definition sym_step (ab : list vec) (x : vec) (out : result vec) (i : nat) : result vec :=
  out <- out ;;
  r <- row ab i ;;
  v <- bmul (upto i r) (from i x) ;;
  out <- add_upto i out v ;;
  v <- bmul (upto i r) (upto i x) ;;
  add_from i out v.
Definition symband_direct (ab : list vec) (lower : bool) (x : vec) : result vec :=
  let out := (r <- row ab 0 ;; bmul r x) in
  fold_left (sym_step ab x) (seq 1 (length ab - 1)) out.

(** ** TridiagonalOperator.toband, 1453-1473 *)
Definition zeros (n : nat) : vec := repeat r0 n.
Definition toband (t : tri) : result (band + list vec) :=
  let n := length (t_diag t) in
  if negb (tri_symmetric t) then
    v <- iset (upto 1 (zeros n)) (t_sub t) ;;
    let row2 := v ++ skipn (n - 1) (zeros n) in
    row1 <- iset (zeros n) (t_diag t) ;;
    v <- iset (from 1 (zeros n)) (t_sup t) ;;
    let row0 := firstn 1 (zeros n) ++ v in
    Ok (inl (B [row0; row1; row2] 1 1))
  else
    row0 <- iset (zeros n) (t_diag t) ;;
    v <- iset (upto 1 (zeros n)) (t_sub t) ;;
    Ok (inr [row0; v ++ skipn (n - 1) (zeros n)]).
End Band.
Arguments tri : clear implicits.
Arguments band : clear implicits.
