(** The Lanczos algorithm, /repo/src/pyoperators/iterative/lanczos.py.  Numbers are elements of an ordered field: rounding is left out.  The operator A is the n x n
    matrix [A], [sqrt] is np.sqrt and [eig] is scipy.linalg.eig_banded (the eigenvalues and the eigenvectors, which are the columns of a matrix).  The messages and the callbacks
    are left out; the loop is the one of IterativeAlgorithm (see IterModel.v). *)
From Verif Require Import Base Algebra Ofield CgModel PowModel.

Section Lanczos.
Context {K : ofield} (n : nat) (A : nat -> nat -> K) (sqrt : K -> K).
Local Open Scope cr_scope.
Notation vec := (nat -> K).

(** The arrays alpha, beta and vectors; None stands for NaN, or a row of NaNs. *)
Record state := St { l_alpha : nat -> option K; l_beta : nat -> option K; l_vectors : nat -> option vec; l_niter : nat }.
Definition set {X} (f : nat -> X) (i : nat) (x : X) : nat -> X := fun j => if Nat.eqb j i then x else f j.
(** self.norm, 44 *)
Definition norm (x : vec) : K := sqrt (dot n x x).
(** x / c *)
Definition divided (x : vec) (c : K) : option vec := if eqb c 0 then None else Some (fun i => div (x i) c).

(** __init__, 41-53: None + 1 is an error.  The array vectors is filled with zeros. *)
Definition create (maxiter : option nat) : result nat := match maxiter with None => Raise TypeError | Some m => Ok m end.
(** initialize, 55-64, the first time.  The first element of the pair is the user's array v0 afterwards: [view] tells whether it is contiguous, so that v0.ravel() is no copy. *)
Definition initialize (view : bool) (v0 : vec) : option vec * state :=
  let v := divided v0 (norm v0) in
  (if view then v else Some v0, St (fun _ => Some 0) (fun _ => Some 0) (set (fun _ => Some (fun _ => 0)) 0 v) 0).
(** iteration, 66-85, after niterations += 1 *)
Definition iteration (s : state) : state :=
  let m := S (l_niter s) in
  let finish alpha beta v_new := St (set (l_alpha s) (m - 1)%nat alpha) (set (l_beta s) (m - 1)%nat beta) (set (l_vectors s) m v_new) m in
  match l_vectors s (m - 1)%nat with
  | None => finish None None None
  | Some v =>
      let v_new := apply n A v in
      let v_new :=
        if Nat.ltb 1 m then
          match l_beta s (m - 2)%nat, l_vectors s (m - 2)%nat with
          | Some beta, Some u => Some (fun i => v_new i - beta * u i)
          | _, _ => None
          end
        else Some v_new in
      match v_new with
      | None => finish None None None
      | Some v_new =>
          let alpha := dot n v_new v in
          let v_new := fun i => v_new i - alpha * v i in
          let beta := norm v_new in
          finish (Some alpha) (Some beta) (divided v_new beta)
      end
  end.
Fixpoint iterations (k : nat) (s : state) : state := match k with O => s | S k => iteration (iterations k s) end.

(** the matrix of TridiagonalOperator(alpha, beta) (see C24) *)
Definition tridiagonal (alpha beta : nat -> K) (i j : nat) : K :=
  if Nat.eqb i j then alpha i else if Nat.eqb i (S j) then beta j else if Nat.eqb j (S i) then beta i else 0.
Definition number (x : option K) : K := match x with Some c => c | None => 0 end.
Definition vector (x : option vec) : vec := match x with Some v => v | None => fun _ => 0 end.
Definition is_some {X} (x : option X) : bool := match x with Some _ => true | None => false end.

Context (eig : nat -> (nat -> nat -> K) -> (nat -> K) * (nat -> nat -> K)).
(** finalize, 87-103: the eigenvalues and the eigenvectors of the operator, k = maxiter.  With a NaN in beta[:-1], TridiagonalOperator is not symmetric and toband returns a BandOperator,
    which has no method eigen; with one in alpha, eig_banded raises ValueError.  The empty arrays of maxiter=0 are refused too. *)
Definition finalize (k : nat) (s : state) : result ((nat -> K) * (nat -> nat -> K)) :=
  if Nat.eqb k 0 then Raise ValueError
  else if negb (forallb (fun j => is_some (l_beta s j)) (seq 0 (k - 1))) then Raise AttributeError
  else if negb (forallb (fun j => is_some (l_alpha s j)) (seq 0 k)) then Raise ValueError
  else
    let '(w, z) := eig k (tridiagonal (fun j => number (l_alpha s j)) (fun j => number (l_beta s j))) in
    Ok (w, fun i l => sum k (fun j => vector (l_vectors s j) i * z j l)).
(** the operator that is returned (see C39) *)
Definition approximation (k : nat) (wv : (nat -> K) * (nat -> nat -> K)) : nat -> nat -> K := eigen k (snd wv) (fst wv).

(** run(steps), core.py 261-275 and 223-241: all the iterations if [steps] is None or 0 *)
Definition run (maxiter : nat) (steps : option nat) (view : bool) (v0 : vec) : result ((nat -> K) * (nat -> nat -> K)) :=
  let m := match steps with None | Some 0%nat => maxiter | Some m => Nat.min m maxiter end in
  finalize maxiter (iterations m (snd (initialize view v0))).
End Lanczos.
Arguments state : clear implicits.
