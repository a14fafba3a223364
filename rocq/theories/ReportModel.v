(** What the conjugate gradients acg and hacg print, save and return (iterative/algorithms.py). *)
From Coq Require Import List Arith Bool String.
From Verif Require Import Base Algebra Ofield.
Import ListNotations.

Section Run.
Context {K : ofield} {V F : Type}.
Local Open Scope cr_scope.

(** StopCondition, 97-156: the arguments of __init__ and the attribute resid.  [sc_all]: the argument cond is np.all, otherwise np.any. *)
Record stop_condition := { sc_maxiter : option nat; sc_tol : option K; sc_gtol : option K; sc_all : bool; sc_resid : option K }.
(** Callback.__init__, 191-216; [cb_shape] is None for the Python value None. *)
Record callback := { cb_verbose : bool; cb_savefile : option F; cb_shape : option (list nat) }.
(** The attributes of ConjugateGradient that are reported, 345-361; the others are left out. *)
Record algo := { a_iter : nat; a_first : K; a_last : K; a_current : K; a_gnorm : K; a_solution : V }.

(** What a run does that can be seen: the message of Algorithm.initialize (48), the header (221), the status line (222-224) with the
    iteration, the criterion and either the residual and the tolerance or the word Residual (151-156); np.savez (233); a new figure or new
    data in it (238-258).  The numbers in the lines are not rounded here. *)
Inductive event :=
| Deprecated | Header | Line (iter : nat) (criterion : K) (residual : option (K * K))
| Saved (file : F) (iter : nat) (criterion : K) (solution : V) | Drawn (dimensions : nat) (new : bool) (solution : V).

Definition absolute (x : K) : K := if ltb x 0 then - x else x.

(** StopCondition.__call__, 148-149: each test whose value is not None is done, in the order of _all_tests (115); _test_tol (107-110) sets resid. *)
Definition stop_call (sc : stop_condition) (a : algo) : bool * stop_condition :=
  let resid := div (absolute (a_last a - a_current a)) (a_first a) in
  let tests := match sc_maxiter sc with Some m => [m <=? a_iter a] | None => [] end
            ++ match sc_tol sc with Some t => [ltb resid t] | None => [] end
            ++ match sc_gtol sc with Some t => [ltb (a_gnorm a) t] | None => [] end in
  (if sc_all sc then forallb id tests else existsb id tests,
   {| sc_maxiter := sc_maxiter sc; sc_tol := sc_tol sc; sc_gtol := sc_gtol sc; sc_all := sc_all sc;
      sc_resid := match sc_tol sc with Some _ => Some resid | None => sc_resid sc end |}).

(** StopCondition.str, 151-156 *)
Definition stop_str (sc : stop_condition) : option (K * K) :=
  match sc_resid sc, sc_tol sc with Some r, Some t => Some (r, t) | _, _ => None end.

(** Callback.print_status, save, plot, imshow and __call__, 218-271; errors of numpy and matplotlib are left out. *)
Definition print_status (cb : callback) (sc : stop_condition) (a : algo) : list event :=
  if cb_verbose cb then (if a_iter a =? 1 then [Header] else []) ++ [Line (a_iter a) (a_current a) (stop_str sc)] else [].
Definition save (cb : callback) (a : algo) : list event :=
  match cb_savefile cb with Some f => [Saved f (a_iter a) (a_current a) (a_solution a)] | None => [] end.
Definition callback_call (cb : callback) (sc : stop_condition) (a : algo) : list event :=
  (if cb_verbose cb then print_status cb sc a else [])
  ++ match cb_savefile cb with Some _ => save cb a | None => [] end
  ++ match cb_shape cb with
     | Some s => if length s =? 1 then [Drawn 1 (a_iter a =? 1) (a_solution a)]
                 else if length s =? 2 then [Drawn 2 (a_iter a =? 1) (a_solution a)] else []
     | None => []
     end.

(** The numerical part of the algorithm (update_gradient to update_criterion, 382-406; modelled in AcgModel.v) is an oracle: the criterion, the squared
    norm of the gradient and the solution after a number of iterations. *)
Context (criterion gradient : nat -> K) (solution : nat -> V).

(** initialize, 46-50, 363-370 *)
Definition initialize : algo :=
  {| a_iter := 0; a_first := criterion 0; a_last := criterion 0; a_current := criterion 0; a_gnorm := gradient 0; a_solution := solution 0 |}.
(** iterate, 408-417 and 55-62 *)
Definition iterate (cb : callback) (sc : stop_condition) (a : algo) : algo * list event :=
  let k := S (a_iter a) in
  let a' := {| a_iter := k; a_first := a_first a; a_last := a_current a; a_current := criterion k; a_gnorm := gradient k; a_solution := solution k |} in
  (a', callback_call cb sc a').
(** cont, 74-81, for at most [fuel] iterations: what happened, the stop condition and, if the loop has ended, the solution *)
Fixpoint cont (fuel : nat) (cb : callback) (sc : stop_condition) (a : algo) : list event * stop_condition * option algo :=
  let '(b, sc') := stop_call sc a in
  if b then ([], sc', Some a)
  else match fuel with
       | O => ([], sc', None)
       | S f => let '(a', e) := iterate cb sc' a in let '(e', sc'', r) := cont f cb sc' a' in (e ++ e', sc'', r)
       end.
(** run, 64-72 *)
Definition run (fuel : nat) (cb : callback) (sc : stop_condition) : list event * stop_condition * option algo :=
  let '(a, e) := iterate cb sc initialize in let '(e', sc', r) := cont fuel cb sc a in (Deprecated :: e ++ e', sc', r).
End Run.
Arguments stop_condition K : clear implicits.
Arguments callback F : clear implicits.
Arguments algo K V : clear implicits.
Arguments event K V F : clear implicits.

(** ** acg and hacg, 430-479 *)
Section Front.
(** The values of the keywords, and the defaults TOL, GTOL, np.any (93-95, 432), False, () (438); None is [none]. *)
Context {W : Type} (none tol gtol np_any false_ empty : W).
Definition keywords := list (string * W).
(** kwargs.get(k, v) *)
Definition get (kw : keywords) (k : string) (d : W) : W := match find (fun p => String.eqb (fst p) k) kw with Some p => snd p | None => d end.
(** define_stop_condition, 431-434: the arguments maxiter, tol, gtol and cond of StopCondition *)
Definition define_stop_condition (kw : keywords) : W * W * W * W :=
  (get kw "maxiter" none, get kw "tol" tol, get kw "gtol" gtol, get kw "cond" np_any).
(** define_callback, 437-440: the arguments verbose, savefile and shape of Callback *)
Definition define_callback (kw : keywords) : W * W * W := (get kw "verbose" false_, get kw "savefile" none, get kw "shape" empty).
(** The constructors QuadraticConjugateGradient(..., stop_condition=..., callback=..., **kwargs): Python refuses a keyword given twice
    (and [kw] cannot hold the names of acg's own parameters); ConjugateGradient (335-344) accepts and forgets those it does not know. *)
Definition constructor (kw : keywords) : result (W * W * W * W * (W * W * W)) :=
  if existsb (fun p => String.eqb (fst p) "stop_condition" || String.eqb (fst p) "callback")%bool kw then Raise TypeError
  else Ok (define_stop_condition kw, define_callback kw).
(** The return statements, 459-462 and 478-479: [Both] is the pair (sol, algorithm). *)
Inductive returned := Solution | Both.
Definition acg_returns (return_algo : bool) : returned := if return_algo then Both else Solution.
Definition hacg_returns (return_algo : bool) : returned := Solution.
End Front.
