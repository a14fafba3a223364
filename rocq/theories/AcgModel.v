(** The deprecated conjugate gradient of criteria, /repo/src/pyoperators/iterative/algorithms.py.  Numbers are elements of an ordered field: rounding is left out.  Solutions are
    one-dimensional arrays: the final reshape (at_exit, 393-394) is left out, and so are the callbacks (called after each iteration with the algorithm) and what is printed. *)
From Verif Require Import Base Algebra Ofield CritModel.

Section Algorithm.
Context {K : ofield}.
Local Open Scope cr_scope.
Notation array := (list K).

(** A number or an array: [None] stands for NaN and infinities, which arise from divisions by zero; what is computed with them is not finite either, and no comparison with them holds. *)
Definition number := option K.
Definition vector := option array.
Definition evaluate {X Y} (f : X -> result Y) (x : option X) : result (option Y) := match x with None => Ok None | Some x => y <- f x ;; Ok (Some y) end.
Definition divide (a b : number) : number := match a, b with Some a, Some b => if eqb b 0 then None else Some (div a b) | _, _ => None end.
(** x + a y *)
Definition axpy (x : vector) (a : number) (y : vector) : vector :=
  match x, a, y with Some x, Some a, Some y => Some (map2 radd x (map (fun t => a * t) y)) | _, _, _ => None end.
Definition opposite (x : vector) : vector := option_map (map ropp) x.

(** The attributes of an algorithm: iter_, current_solution, current_gradient, current_gradient_norm, current_descent, current_criterion, first_criterion, and the values kept from the
    previous iteration *)
Record algo := Algo {
  iter_ : nat; solution : vector; grad : vector; grad_norm : number; descent : vector; crit : number; first_crit : number;
  last_solution : vector; last_grad : vector; last_grad_norm : number; last_descent : vector; last_crit : number }.
Definition set_gradient (s : algo) (g : vector) : algo :=
  Algo (iter_ s) (solution s) g (grad_norm s) (descent s) (crit s) (first_crit s) (last_solution s) (grad s) (last_grad_norm s) (last_descent s) (last_crit s).
Definition set_gradient_norm (s : algo) (v : number) : algo :=
  Algo (iter_ s) (solution s) (grad s) v (descent s) (crit s) (first_crit s) (last_solution s) (last_grad s) (grad_norm s) (last_descent s) (last_crit s).
Definition set_descent (s : algo) (d last : vector) : algo :=
  Algo (iter_ s) (solution s) (grad s) (grad_norm s) d (crit s) (first_crit s) (last_solution s) (last_grad s) (last_grad_norm s) last (last_crit s).
Definition set_solution (s : algo) (x : vector) : algo :=
  Algo (iter_ s) x (grad s) (grad_norm s) (descent s) (crit s) (first_crit s) (solution s) (last_grad s) (last_grad_norm s) (last_descent s) (last_crit s).
Definition set_criterion (s : algo) (v : number) : algo :=
  Algo (iter_ s) (solution s) (grad s) (grad_norm s) (descent s) v (first_crit s) (last_solution s) (last_grad s) (last_grad_norm s) (last_descent s) (crit s).
Definition set_iter (s : algo) (i : nat) : algo :=
  Algo i (solution s) (grad s) (grad_norm s) (descent s) (crit s) (first_crit s) (last_solution s) (last_grad s) (last_grad_norm s) (last_descent s) (last_crit s).

(** fletcher_reeves and polak_ribiere, 160-174; there is no function np.norm *)
Inductive update_type := FletcherReeves | PolakRibiere.
Definition update (t : update_type) (s : algo) : result number :=
  match t with FletcherReeves => Ok (divide (grad_norm s) (last_grad_norm s)) | PolakRibiere => Raise AttributeError end.

(** The criterion: its value, its gradient and the size of its input; a line search is a function of the algorithm *)
Context (n : nat) (value : array -> result K) (gradient : array -> result array) (line_search : algo -> result number) (type : update_type).

(** first_guess, 344-351 *)
Definition first_guess (x0 : option array) : array := match x0 with None => repeat 0 n | Some x => x end.
(** initialize, 335-342, and Algorithm.initialize, 46-49.  [s] are the attributes left by the constructor (315-333) or by a previous run. *)
Definition initialize (s : algo) : result algo :=
  let x := Some (first_guess None) in
  v <- evaluate value x ;;
  Ok (Algo 0 x (grad s) (grad_norm s) (descent s) v v (last_solution s) (last_grad s) (last_grad_norm s) (last_descent s) (last_crit s)).
(** update_gradient, 354-356 *)
Definition update_gradient (s : algo) : result algo := g <- evaluate gradient (solution s) ;; Ok (set_gradient s g).
(** update_gradient_norm, 358-360 *)
Definition update_gradient_norm (s : algo) : algo := set_gradient_norm s (option_map norm2 (grad s)).
(** update_descent, 362-368 *)
Definition update_descent (s : algo) : result algo :=
  if Nat.eqb (iter_ s) 0 then Ok (set_descent s (opposite (grad s)) (last_descent s))
  else b <- update type s ;; Ok (set_descent s (axpy (opposite (grad s)) b (descent s)) (descent s)).
(** update_solution, 370-373 *)
Definition update_solution (s : algo) : result algo := a <- line_search s ;; Ok (set_solution s (axpy (solution s) a (descent s))).
(** update_criterion, 375-377 *)
Definition update_criterion (s : algo) : result algo := v <- evaluate value (solution s) ;; Ok (set_criterion s v).
(** iterate, 379-388, and Algorithm.iterate, 54-61 *)
Definition iterate (s : algo) : result algo :=
  s <- update_gradient s ;; s <- update_descent (update_gradient_norm s) ;; s <- update_solution s ;; s <- update_criterion s ;; Ok (set_iter s (S (iter_ s))).

(** StopCondition, 97-149: cond is np.any or np.all *)
Record stop := Stop { maxiter : option nat; tol : option K; gtol : option K; cond_all : bool }.
Definition less (a : number) (b : K) : bool := match a with Some a => ltb a b | None => false end.
Definition residual (s : algo) : number :=
  divide (match last_crit s, crit s with Some a, Some b => Some (abs (a - b)) | _, _ => None end) (first_crit s).
Definition tests (c : stop) (s : algo) : list bool :=
  (match maxiter c with None => [] | Some m => [Nat.leb m (iter_ s)] end) ++
  (match tol c with None => [] | Some t => [less (residual s) t] end) ++
  (match gtol c with None => [] | Some t => [less (grad_norm s) t] end).
Definition stops (c : stop) (s : algo) : bool := if cond_all c then forallb id (tests c s) else existsb id (tests c s).

(** cont, 74-81: [None] if there are more than [fuel] iterations *)
Fixpoint cont (fuel : nat) (c : stop) (s : algo) : result (option algo) :=
  if stops c s then Ok (Some s) else match fuel with O => Ok None | S fuel => s <- iterate s ;; cont fuel c s end.
(** run, 63-72 *)
Definition run (fuel : nat) (c : stop) (s : algo) : result (option algo) := s <- initialize s ;; s <- iterate s ;; cont fuel c s.
(** __call__, 90-92: the method does not return anything *)
Definition call (fuel : nat) (c : stop) (s : algo) : result (option (algo * option vector)) :=
  r <- run fuel c s ;; Ok (option_map (fun s => (s, None)) r).
End Algorithm.
Arguments algo : clear implicits. Arguments stop : clear implicits. Arguments number : clear implicits. Arguments vector : clear implicits.

(** The constructor, 305-333: the first guess is not kept.  (The criteria np.inf are not finite.) *)
Definition construct {K : ofield} (x0 : option (list K)) : algo K := Algo 0 None None None None None None None None None None None.
(** optimal_step, linesearch.py 24-55, as a function of the algorithm; numbers that are not finite give one that is not *)
Definition search_optimal {K : ofield} (es : list (element K)) (l : list component) (s : algo K) : result (number K) :=
  match descent s, grad s with Some d, Some g => optimal_step es l d g | _, _ => Ok None end.
