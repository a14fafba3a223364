(** Stop conditions: iterative/stopconditions.py 12-85, as they are used by IterativeAlgorithm (iterative/core.py 277-287, modelled in
    IterModel). *)
From Verif Require Import Base IterModel.

Section Stop.
(** [V]: the values of the variables, [E]: the errors with their order, [M]: the messages.  [error] is the attribute error of the
    algorithm, which is assumed to be set, as a function of its number of iterations and of its variables. *)
Context {V E M : Type} (leb : E -> E -> bool) (error : nat -> list (list V) -> E).

(** StopCondition(condition, message) 12-31, MaxErrorStopCondition 54-66, MaxIterationStopCondition 69-85, OrStopCondition 34-43,
    NoStopCondition 46-51.  The condition of a StopCondition is assumed to return a boolean. *)
Inductive condition :=
  | Condition (c : nat -> list (list V) -> bool) (message : M)
  | MaxError (maxerror : E) (message : M)
  | MaxIteration (maxiteration : Z) (message : M)
  | Or (operands : list condition)
  | NoStop.
(** __call__, 23-25 and 38-40: the message of the StopIteration that is raised, if any *)
Fixpoint check (c : condition) (n : nat) (v : list (list V)) : option M :=
  match c with
  | Condition c m => if c n v then Some m else None
  | MaxError e m => if leb (error n v) e then Some m else None
  | MaxIteration k m => if Z.eqb (Z.of_nat n) k then Some m else None
  | Or l => (fix first l := match l with [] => None | c :: l => match check c n v with Some m => Some m | None => first l end end) l
  | NoStop => None
  end.
(** self | other, 27-28 and 50-51 *)
Definition either (c d : condition) : condition := match c with NoStop => d | _ => Or [c; d] end.
(** The algorithm with given stop conditions *)
Definition with_conditions (a : algo V) (normal abnormal : condition) : algo V :=
  {| iteration := iteration a;
     normal_stop := fun n v => match check normal n v with Some _ => true | None => false end;
     abnormal_stop := fun n v => match check abnormal n v with Some _ => true | None => false end;
     order := order a; inplace_recursion := inplace_recursion a; allocate_new_state := allocate_new_state a;
     reuse_initial_state := reuse_initial_state a; int_max := int_max a; interrupt := interrupt a |}.
(** str(c), 30-31, 42-43, 65-66 and 84-85: the method of OrStopCondition has no return statement, and str does not accept None.
    [text] gives the texts of the numbers and messages. *)
Definition text (T : Type) (of_message : M -> T) (of_error : E -> T) (of_number : Z -> T) (no_stop : T) (c : condition) : result T :=
  match c with
  | Condition _ m => Ok (of_message m)
  | MaxError e _ => Ok (of_error e)
  | MaxIteration k _ => Ok (of_number k)
  | Or _ => Raise TypeError
  | NoStop => Ok no_stop
  end.
End Stop.
Arguments condition : clear implicits.
