(** EigendecompositionOperator and the decompositions of SymmetricBandOperator: linear.py 1659-1701 and 1862-1950. *)
From Coq Require Import List Arith String.
From Verif Require Import Base Algebra Ofield.
Import ListNotations.

Section Numbers.
Context {K : ofield}.
Local Open Scope cr_scope.
(** V, W and V.T (1897-1898, 1902): the matrix v has n rows and k columns, the eigenvectors; w the k eigenvalues *)
Definition apply_VT (n : nat) (v : nat -> nat -> K) (x : nat -> K) (l : nat) : K := sum n (fun i => v i l * x i).
Definition apply_W (w : nat -> K) (y : nat -> K) (l : nat) : K := w l * y l.
Definition apply_V (k : nat) (v : nat -> nat -> K) (z : nat -> K) (i : nat) : K := sum k (fun l => v i l * z l).
(** The composition [V, W, V.T] of 1902; the simplifications of the composition when eigenvalues are equal are left out (C10). *)
Definition direct (n k : nat) (v : nat -> nat -> K) (w : nat -> K) (x : nat -> K) : nat -> K := apply_V k v (apply_W w (apply_VT n v x)).

(** det, 1909-1913; trace, 1929-1930 *)
Fixpoint prod (n : nat) (f : nat -> K) : K := match n with O => 1 | S n => prod n f * f n end.
Definition det (k : nat) (w : nat -> K) : K := prod k w.
Definition trace (k : nat) (w : nat -> K) : K := sum k w.
(** nze.max() and nze.min() *)
Fixpoint maximum (a : K) (l : list K) : K := match l with [] => a | b :: l => maximum (if ltb a b then b else a) l end.
Fixpoint minimum (a : K) (l : list K) : K := match l with [] => a | b :: l => minimum (if ltb b a then b else a) l end.
(** cond, 1932-1943; the maximum of an empty array raises ValueError *)
Definition nonzero (k : nat) (w : nat -> K) : list K := filter (fun a => negb (eqb a 0)) (map w (seq 0 k)).
Definition cond (k : nat) (w : nat -> K) : result K :=
  match nonzero k w with [] => Raise ValueError | a :: l => Ok (div (maximum a l) (minimum a l)) end.
End Numbers.

(** ** The keywords *)
(** The keywords of Operator.__init__, core.py 147-173 *)
Definition operator_keywords : list string :=
  ["direct"; "transpose"; "adjoint"; "conjugate"; "inverse"; "inverse_transpose"; "inverse_adjoint"; "inverse_conjugate"; "attrin"; "attrout"; "classin"; "classout"; "commin"; "commout"; "reshapein";
   "reshapeout"; "shapein"; "shapeout"; "toshapein"; "toshapeout"; "validatein"; "validateout"; "dtype"; "flags"; "name"]%string.
(** The keywords of scipy.sparse.linalg.eigsh *)
Definition eigsh_keywords : list string := ["k"; "M"; "sigma"; "which"; "v0"; "ncv"; "maxiter"; "tol"; "return_eigenvectors"; "Minv"; "OPinv"; "mode"]%string.
Definition among (l : list string) (n : string) : bool := existsb (String.eqb n) l.
(** A call f( **keywords): TypeError for a keyword that is not a parameter, or for one that is already given *)
Definition call (parameters given keywords : list string) : result unit :=
  if forallb (fun n => among parameters n && negb (among given n)) keywords then Ok tt else Raise TypeError.
(** EigendecompositionOperator.__init__, 1894-1903: what it does with its keywords.  [decomposed]: v and w are given. *)
Definition init (decomposed : bool) (keywords : list string) : result unit :=
  _ <- (if decomposed then Ok tt else call eigsh_keywords ["return_eigenvectors"%string] keywords) ;;
  call operator_keywords ["operands"%string] keywords.

(** SymmetricBandOperator.eigen, 1659-1683.  With eigvals_only, eig_banded returns the eigenvalues alone, an array of n numbers, which is unpacked into w, v: ValueError
    unless n is 2.  [Scalars]: w and v are then the two eigenvalues. *)
Inductive outcome := Spectral | Scalars.
Definition eigen (n : nat) (eigvals_only : bool) : result outcome :=
  o <- (if eigvals_only then (if (n =? 2)%nat then Ok Scalars else Raise ValueError) else Ok Spectral) ;;
  _ <- init true ["shapein"%string] ;; Ok o.
(** cholesky, 1685-1701: LowerTriangularOperator and UpperTriangularOperator take one positional argument (1607, 1618), two are given; the keywords are those of
    the operator, always with shapein (1637), which BandOperator.__init__ gives again to Operator.__init__ (1536). *)
Definition positional (expected given : nat) : result unit := if (given <=? expected)%nat then Ok tt else Raise TypeError.
Definition cholesky (lower positive_definite : bool) : result unit :=
  if positive_definite then positional 1 2 else Raise (OtherError 2) (* LinAlgError *).
