(** Double loop inference, iterative/dli.py, and the wrappers around scipy.optimize, iterative/optimize.py.

    The numbers are the real numbers of Coq's library (no rounding).  An array of size n is a function on the indices, used below n only; the model, the prior and the noise covariance are matrices.  The conversions of shapes
    (asoperator1d, ravel, resize) and the messages are left out. *)
From Coq Require Import Reals.
From Verif Require Import Base Algebra.
Local Open Scope R_scope.

Definition Rring : cring := {| car := R; r0 := 0; r1 := 1; radd := Rplus; rmul := Rmult; rsub := Rminus; ropp := Ropp; rth := RTheory |}.
Definition vec := nat -> R.
Definition mat := nat -> nat -> R.
(** sum(f(0), ..., f(n - 1)) *)
Definition rsum (n : nat) (f : nat -> R) : R := sum (K := Rring) n f.
(** np.dot, and the products by a matrix of n columns, or by the transpose of a matrix of m rows *)
Definition dot (n : nat) (x y : vec) : R := rsum n (fun i => x i * y i).
Definition mv (n : nat) (A : mat) (x : vec) : vec := fun i => rsum n (fun j => A i j * x j).
Definition mtv (m : nat) (A : mat) (y : vec) : vec := fun j => rsum m (fun i => A i j * y i).

(** The attributes of DoubleLoopAlgorithm used by the criterion (162-202): n unknowns, d data, m rows of the prior *)
Record algo := Algo { a_n : nat; a_d : nat; a_m : nat; a_model : mat; a_data : vec; a_prior : mat; a_noise : option mat; a_sigma : R; a_tau : vec; a_z : vec }.

(** criterions.py, Norm2, 163-190 *)
Definition norm2 (d : nat) (C : option mat) (x : vec) : R := match C with None => dot d x x | Some C => dot d x (mv d C x) end.
Definition norm2_diff (d : nat) (C : option mat) (x : vec) : vec := match C with None => fun i => 2 * x i | Some C => fun i => 2 * mv d C x i end.

Section Criterion.
Context (a : algo).
Let n := a_n a. Let d := a_d a. Let m := a_m a. Let sigma := a_sigma a. Let t := a_tau a. Let z := a_z a.

(** The projections X * u and B * u (get_projections, 54-55) *)
Definition projections (u : vec) : vec * vec := (mv n (a_model a) u, mv n (a_prior a) u).
(** likelihood, 58-62; p are the projections of u *)
Definition likelihood (p : vec * vec) : R := / (sigma * sigma) * norm2 d (a_noise a) (fun i => fst p i - a_data a i).
(** dlike, 64-69 *)
Definition dlike (p : vec * vec) : vec := fun j => / (sigma * sigma) * mtv d (a_model a) (norm2_diff d (a_noise a) (fun i => fst p i - a_data a i)) j.
(** d2like, 71-77, applied to p *)
Definition d2like (p : vec) : vec := fun j => / (sigma * sigma) * mtv d (a_model a) (match a_noise a with None => mv n (a_model a) p | Some N => mv d N (mv n (a_model a) p) end) j.
(** penalization, 82-89 *)
Definition penalization (p : vec * vec) : R := rsum m (fun i => t i * sqrt (z i + (Rabs (snd p i) / sigma) * (Rabs (snd p i) / sigma))).
(** dpen, 91-99 *)
Definition dpen (p : vec * vec) : vec := fun j => mtv m (a_prior a) (fun i => 2 * (t i * snd p i) / sqrt (z i + (snd p i / sigma) * (snd p i / sigma))) j / (sigma * sigma).
(** d2pen, 101-109, applied to q; x ** 1.5 is x sqrt(x) *)
Definition d2pen (p : vec * vec) (q : vec) : vec :=
  mtv m (a_prior a) (fun i => let x := z i + (snd p i / sigma) * (snd p i / sigma) in (t i * z i) / (x * sqrt x * (sigma * sigma)) * mv n (a_prior a) q i).

(** __call__, 114-115; gradient, 117-118; hessian_p, 123-124 (hessian, 120-121), from the projections *)
Definition call_ (p : vec * vec) : R := likelihood p + penalization p.
Definition gradient_ (p : vec * vec) : vec := fun j => dlike p j + dpen p j.
Definition hessian_ (p : vec * vec) (q : vec) : vec := fun j => d2like q j + d2pen p q j.

(** The memory of the criterion, 38-40: last_u, Xu and Bu *)
Record memory := Memory { last_u : option vec; last_p : option (vec * vec) }.
Definition new_memory : memory := Memory None None.
(** islast, 42-43: np.all(u == last_u).  An array compared with None gives an array of False, whose np.all is True if it is empty. *)
Definition islast (s : memory) (u : vec) : bool :=
  match last_u s with
  | None => (n =? 0)%nat
  | Some v => forallb (fun i => if Req_EM_T (u i) (v i) then true else false) (seq 0 n)
  end.
(** get_projections, 48-56 (None for the projections not set) *)
Definition get_projections (s : memory) (u : vec) : memory * option (vec * vec) :=
  if islast s u then (s, last_p s) else let p := projections u in (Memory (Some u) (Some p), Some p).
(** The calls of the criterion that an optimiser makes; TypeError if the projections are None *)
Inductive query := Call (u : vec) | Gradient (u : vec) | HessianP (u p : vec).
Inductive answer := Number (x : R) | Vector (v : vec) | Error_ (e : exn).
(** likelihood, dlike, penalization, dpen, d2pen call get_projections each: the second call finds the projections of the first *)
Definition eval (s : memory) (q : query) : memory * answer :=
  match q with
  | Call u => let (s, p) := get_projections s u in let (s, p') := get_projections s u in (s, match p, p' with Some p, Some p' => Number (likelihood p + penalization p') | _, _ => Error_ TypeError end)
  | Gradient u => let (s, p) := get_projections s u in let (s, p') := get_projections s u in (s, match p, p' with Some p, Some p' => Vector (fun j => dlike p j + dpen p' j) | _, _ => Error_ TypeError end)
  | HessianP u q => let (s, p) := get_projections s u in (s, match p with Some p => Vector (fun j => d2like q j + d2pen p q j) | _ => Error_ TypeError end)
  end.
Fixpoint evals (s : memory) (l : list query) : list answer :=
  match l with [] => [] | q :: l => let (s, r) := eval s q in r :: evals s l end.
End Criterion.

(** DoubleLoopAlgorithm.__init__, 185-196: tau, for a prior of m rows.  A scalar is an array of size 1. *)
Definition tau_of (m : nat) (tau : option (list R)) : result vec :=
  match tau with
  | None => Ok (fun _ => 1)
  | Some l => if (length l =? m)%nat then Ok (fun i => nth i l 0) else match l with [x] => Ok (fun _ => x * 1) | _ => Raise ValueError end
  end.
(** update_inv_cov, 249-257: the matrix of the operator *)
Definition inv_cov (a : algo) (gamma : vec) : mat := fun i j =>
  rsum (a_d a) (fun k => a_model a k i * match a_noise a with None => a_model a k j | Some N => rsum (a_d a) (fun l => N k l * a_model a l j) end) + rsum (a_m a) (fun k => a_prior a k i * (/ gamma k * a_prior a k j)).
(** update_z, 263-268: the eigenvalues e and eigenvectors (the columns of v) of the approximation of inv_cov, r of them *)
Definition update_z (a : algo) (r : nat) (e : vec) (v : mat) : vec := fun i => rsum r (fun k => e k * (mv (a_n a) (a_prior a) (fun j => v j k) i * mv (a_n a) (a_prior a) (fun j => v j k) i)).
(** update_gamma, 290-293 *)
Definition update_gamma (a : algo) (u : vec) : vec := fun i => let s := Rabs (mv (a_n a) (a_prior a) u i) in sqrt (a_z a i + (s / a_sigma a) * (s / a_sigma a)) / a_tau a i.

(** optimize.py: the classes of wrappers around scipy.optimize.fmin_xxx, for arrays of any type V and criteria of any type C *)
Inductive wrapper := COBYLA | Powell | CG | TNC | NCG | LBFGSB | SLSQP | BFGS.
Section Wrappers.
Context {C V G H : Type}.
(** What scipy's function returns: an array, or a tuple whose first item is the array *)
Inductive output := Array (x : V) | Tuple (x : V).
(** The function of scipy: its criterion, first guess, gradient and product by the hessian *)
Context (fmin : wrapper -> C -> V -> option G -> option H -> output).
(** np.zeros(shapein) *)
Context (zeros : V).
Record fminw := Fmin { f_class : wrapper; f_criterion : C; f_gradient : option G; f_hessian_p : option H; f_current : option V; f_output : option output }.
(** FminWrapper.__init__, 40-52 (current_solution is set by first_guess and then to None), FminNCG.__init__, 137-140 *)
Definition new_wrapper (w : wrapper) (c : C) (g : option G) (h : option H) (x0 : option V) : result fminw :=
  match w, h with
  | NCG, None => Raise ValueError
  | _, _ => Ok (Fmin w c g h None None)
  end.
(** __call__: first_guess() (54-61) without argument, then scipy's function with the arguments of each class; fmin_cobyla's result is put in current_solution (71) and replaced by optimizer_output (79-82) *)
Definition wrapper_call (f : fminw) : fminw * option V :=
  let start := zeros in
  match f_class f with
  | COBYLA =>
      let sol := match f_output f with Some (Tuple x) | Some (Array x) => Some x | None => None end in
      (Fmin (f_class f) (f_criterion f) (f_gradient f) (f_hessian_p f) sol (f_output f), sol)
  | w =>
      let o := match w with
               | Powell => fmin w (f_criterion f) start None None
               | NCG => fmin w (f_criterion f) start (f_gradient f) (f_hessian_p f)
               | _ => fmin w (f_criterion f) start (f_gradient f) None
               end in
      let sol := match o with Tuple x | Array x => Some x end in
      (Fmin w (f_criterion f) (f_gradient f) (f_hessian_p f) sol (Some o), sol)
  end.
End Wrappers.
Arguments output V : clear implicits.
