(** The preconditioned conjugate gradient, /repo/src/pyoperators/iterative/cg.py.  Numbers are elements of an ordered field; the
    operators A and M are n x n matrices and an array is flattened to a vector of n numbers.  The constructor's checks (75-119), the messages and the
    callbacks are left out. *)
From Verif Require Import Base Algebra Ofield.

Section Cg.
Context {K : ofield} (n : nat).
Local Open Scope cr_scope.
Definition vec := nat -> K.
Definition mat := nat -> nat -> K.
Definition apply (A : mat) (x : vec) : vec := fun i => sum n (fun j => A i j * x j).
(** _dot, _norm2, 242-254, without a communicator *)
Definition dot (x y : vec) : K := sum n (fun i => x i * y i).

(** The attributes x, r, d, delta, niterations and the square of error. *)
Record state := St { s_x : vec; s_r : vec; s_d : vec; s_delta : K; s_error2 : K; s_niter : nat }.
(** What a method does: end normally or raise StopIteration; a division by zero fills the arrays with NaN or infinities. *)
Inductive outcome := Fine (s : state) | Stops (s : state) | NotANumber.

Context (A M : mat) (b : vec) (tol : K).
(** np.sqrt(e2) < tol *)
Definition below (e2 : K) : bool := ltb 0 tol && ltb e2 (tol * tol).

(** initialize, 126-140, from the initial guess *)
Definition initialize (x0 junk : vec) : outcome :=
  let b_norm := dot b b in
  if eqb b_norm 0 then Stops (St (fun _ => 0) junk junk 0 0 0)
  else
    let r := fun i => b i - apply A x0 i in
    let error2 := div (dot r r) b_norm in
    if below error2 then Stops (St x0 r junk 0 error2 0)
    else let d := apply M r in Fine (St x0 r d (dot r d) error2 0).

(** iteration, 142-158, and niterations += 1 (core.py 230) *)
Definition iteration (s : state) : outcome :=
  let d := s_d s in
  let q := apply A d in
  let dq := dot d q in
  if eqb dq 0 then NotANumber
  else
    let alpha := div (s_delta s) dq in
    let x := fun i => s_x s i + alpha * d i in
    let r := fun i => s_r s i - alpha * q i in
    let error2 := div (dot r r) (dot b b) in
    if below error2 then Stops (St x r d (s_delta s) error2 (S (s_niter s)))
    else
      let s' := apply M r in
      let delta_old := s_delta s in
      let delta := dot r s' in
      if eqb delta_old 0 then NotANumber
      else
        let beta := div delta delta_old in
        let d := fun i => d i * beta in
        let d := fun i => d i + s' i in
        Fine (St x r d delta error2 (S (s_niter s))).

(** initialize and k calls of next, core.py 223-241 *)
Fixpoint iterations (x0 junk : vec) (k : nat) : outcome :=
  match k with O => initialize x0 junk | S k => match iterations x0 junk k with Fine s => iteration s | o => o end end.

(** pcg, 222-239, IterativeAlgorithm.run and next (core.py 223-241, 261-275): the abnormal stop condition niterations ==
    maxiter is tested before each iteration (stopconditions.py 74); [todo] iterations are left.  maxiter is at most the largest integer. *)
Inductive answer := Success (s : state) | Failure (s : state) | Garbage.
Fixpoint loop (todo : nat) (s : state) : answer :=
  match todo with
  | O => Failure s
  | S todo => match iteration s with Fine s => loop todo s | Stops s => Success s | NotANumber => Garbage end
  end.
Definition pcg (x0 junk : vec) (maxiter : nat) : answer :=
  match initialize x0 junk with Fine s => loop maxiter s | Stops s => Success s | NotANumber => Garbage end.
(** restart, core.py 256-259: the method initialize is called before run *)
Definition restart (x0 junk : vec) (maxiter : nat) : result answer :=
  match initialize x0 junk with
  | Stops _ => Raise StopIteration
  | _ => Ok (pcg x0 junk maxiter)
  end.
End Cg.
Arguments state : clear implicits. Arguments outcome : clear implicits. Arguments answer : clear implicits.

(** _dot and _norm2 with a communicator, 242-254: each process has a part of the arrays, Allreduce adds the local results. *)
Definition allreduce {K : cring} (local : list K) : K := lsum local.
Definition mpi_dot {K : cring} (x y : list (list K)) : K := allreduce (map (fun p => ldot (fst p) (snd p)) (combine x y)).
