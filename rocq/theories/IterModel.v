(** Iterative algorithms, iterative/core.py 20-435.  An array is a buffer (an address) whose whole contents is a value
    of type [V]; writing x[...] = v overwrites the contents, x = v binds the name to another buffer. *)
From Verif Require Import Base.

Section Iter.
Context {V : Type}.

Inductive outcome := Fine | Stops | AbnormalStops.

(** The parameters: an algorithm is its iteration method, its stop conditions and the keywords of the constructor.
    [iteration n h] gives, from the iteration number and from the values of x, x_old, x_old2... of each variable, the
    value it gives to x_new (to x itself if inplace_recursion) for each variable, and whether it then raises
    StopIteration or AbnormalStopIteration. *)
Record algo := {
  iteration : nat -> list (list V) -> list V * outcome;
  normal_stop : nat -> list (list V) -> bool;
  abnormal_stop : nat -> list (list V) -> bool;
  order : nat;
  inplace_recursion : bool;
  allocate_new_state : bool;
  reuse_initial_state : bool;
  int_max : nat;                       (* np.iinfo(int).max *)
  interrupt : nat -> bool              (* whether CTRL-C is pressed during the k-th iteration since the beginning *)
}.

(** _set_buffer_handling, 305-327 *)
Definition set_buffer_handling (a : algo) : algo :=
  {| iteration := iteration a; normal_stop := normal_stop a; abnormal_stop := abnormal_stop a; order := order a;
     inplace_recursion := inplace_recursion a;
     allocate_new_state := if inplace_recursion a then false else allocate_new_state a;
     reuse_initial_state := if inplace_recursion a then reuse_initial_state a
                            else if allocate_new_state a then reuse_initial_state a else false;
     int_max := int_max a; interrupt := interrupt a |}.

(** The state: contents of the buffers, first free address; for each variable the buffer bound to x_new and those bound
    to x, x_old, ...; the buffers of the initial values; the number of iterations; those done since the beginning.
    When x_new is not allocated beforehand the attribute does not exist before the first iteration: its address is then
    a dummy that is never used. *)
Record state := {
  heap : nat -> V;
  top : nat;
  news : list nat;
  hists : list (list nat);
  init : list (list nat);
  niter : nat;
  ticks : nat
}.

Definition write (h : nat -> V) (a : nat) (v : V) : nat -> V := fun b => if Nat.eqb b a then v else h b.
Fixpoint writes (h : nat -> V) (l : list (nat * V)) : nat -> V :=
  match l with [] => h | (a, v) :: l' => writes (write h a v) l' end.

(** _set_initial_state, 336-393, and the end of __init__: x_new is allocated if allocate_new_state; initial values that
    are the same buffer are rejected if they are to be reused. *)
Fixpoint no_dup (l : list nat) : bool :=
  match l with [] => true | x :: l' => negb (existsb (Nat.eqb x) l') && no_dup l' end.
Definition new_algo (a : algo) (h : nat -> V) (t : nat) (ini : list (list nat)) : result state :=
  if reuse_initial_state a && negb (no_dup (concat ini)) then Raise ValueError
  else if allocate_new_state a then
    Ok {| heap := h; top := t + length ini; news := seq t (length ini); hists := map (fun _ => []) ini; init := ini;
          niter := order a - 1; ticks := 0 |}
  else Ok {| heap := h; top := t; news := map (fun _ => 0) ini; hists := map (fun _ => []) ini; init := ini;
             niter := order a - 1; ticks := 0 |}.

(** np.array(b, dtype, copy=copy) for the initial values of all the variables: new buffers if copied. (The dtype is
    assumed to be the right one: otherwise there is a copy in any case.) *)
Fixpoint copies (t : nat) (l : list (list nat)) : list (list nat) :=
  match l with [] => [] | v :: l' => seq t (length v) :: copies (t + length v) l' end.
Definition copy_all (h : nat -> V) (t : nat) (l : list (list nat)) : nat -> V :=
  writes h (combine (seq t (length (concat l))) (map h (concat l))).

(** initialize, 197-221 *)
Definition initialize (a : algo) (s : state) : result state :=
  if (order a - 1 <? niter s) && reuse_initial_state a then Raise RuntimeError
  else
    let copy := (inplace_recursion a || allocate_new_state a) && negb (reuse_initial_state a) in
    if copy then
      Ok {| heap := copy_all (heap s) (top s) (init s); top := top s + length (concat (init s)); news := news s;
            hists := copies (top s) (init s); init := init s; niter := order a - 1; ticks := ticks s |}
    else Ok {| heap := heap s; top := top s; news := news s; hists := init s; init := init s; niter := order a - 1;
               ticks := ticks s |}.

Definition values (s : state) : list (list V) := map (map (heap s)) (hists s).

(** The iteration method: x[...] = v, x_new[...] = v or x_new = v *)
Definition iterate (a : algo) (s : state) : state * outcome :=
  let (vs, o) := iteration a (niter s) (values s) in
  if inplace_recursion a then
    ({| heap := writes (heap s) (combine (map (hd 0) (hists s)) vs); top := top s; news := news s; hists := hists s;
        init := init s; niter := niter s; ticks := S (ticks s) |}, o)
  else if allocate_new_state a then
    ({| heap := writes (heap s) (combine (news s) vs); top := top s; news := news s; hists := hists s;
        init := init s; niter := niter s; ticks := S (ticks s) |}, o)
  else
    let n := length (hists s) in
    ({| heap := writes (heap s) (combine (seq (top s) n) vs); top := top s + n; news := seq (top s) n; hists := hists s;
        init := init s; niter := niter s; ticks := S (ticks s) |}, o).

(** _update_variables, 426-435: buffers = (new, x, old, ...); new <- the last one, x <- new, old <- x, ... *)
Definition update_variables (a : algo) (s : state) : state :=
  if inplace_recursion a then s
  else {| heap := heap s; top := top s;
          news := map (fun p => last (fst p :: snd p) 0) (combine (news s) (hists s));
          hists := map (fun p => removelast (fst p :: snd p)) (combine (news s) (hists s));
          init := init s; niter := niter s; ticks := ticks s |}.

(** _check_stop_conditions, 277-287 *)
Definition check_stop_conditions (a : algo) (s : state) : option exn :=
  if normal_stop a (niter s) (values s) then Some StopIteration
  else if abnormal_stop a (niter s) (values s) then Some AbnormalStopIteration
  else None.

(** One turn of the loop of next, 227-240.  The block is uninterruptible: an interrupt is raised at its end if it ends
    normally (see ContextModel). *)
Definition turn (a : algo) (s : state) : state * option exn :=
  match check_stop_conditions a s with
  | Some e => (s, Some e)
  | None =>
      let s1 := {| heap := heap s; top := top s; news := news s; hists := hists s; init := init s;
                   niter := S (niter s); ticks := ticks s |} in
      match iterate a s1 with
      | (s2, Stops) => (update_variables a s2, Some StopIteration)
      | (s2, AbnormalStops) => (s2, Some AbnormalStopIteration)
      | (s2, Fine) => (update_variables a s2, if interrupt a (ticks s) then Some KeyboardInterrupt else None)
      end
  end.

Fixpoint loop (a : algo) (n : nat) (s : state) : state * option exn :=
  match n with
  | O => (s, None)
  | S n' => match turn a s with (s', None) => loop a n' s' | r => r end
  end.

(** next, 223-241 *)
Definition next (a : algo) (n : nat) (s : state) : state * option exn :=
  if niter s =? order a - 1 then
    match initialize a s with Raise e => (s, Some e) | Ok s' => loop a n s' end
  else loop a n s.

Definition swallow (r : state * option exn) : state * option exn :=
  match r with (s, Some StopIteration) => (s, None) | r => r end.

(** run, 261-275 *)
Definition run (a : algo) (n : option nat) (s : state) : state * option exn :=
  if order a - 1 <? niter s then (s, Some RuntimeError)
  else
    let n := match n with None | Some O => int_max a | Some n => n end in   (* n = n or np.iinfo(int).max *)
    swallow (next a n s).

(** cont, 172-184 *)
Definition cont (a : algo) (s : state) : state * option exn :=
  if niter s =? 0 then (s, Some RuntimeError) else swallow (next a (int_max a) s).

(** restart, 256-259 *)
Definition restart (a : algo) (n : option nat) (s : state) : state * option exn :=
  match initialize a s with Raise e => (s, Some e) | Ok s' => run a n s' end.

Inductive command := Next (n : nat) | Run (n : option nat) | Cont | Restart (n : option nat).
Definition exec (a : algo) (c : command) (s : state) : state * option exn :=
  match c with Next n => next a n s | Run n => run a n s | Cont => cont a s | Restart n => restart a n s end.

(** A sequence of commands, whatever exceptions they raise; the outcomes are collected. *)
Fixpoint execs (a : algo) (cs : list command) (s : state) : state * list (option exn) :=
  match cs with
  | [] => (s, [])
  | c :: cs' => let (s1, o) := exec a c s in let (s2, os) := execs a cs' s1 in (s2, o :: os)
  end.

End Iter.
Arguments algo : clear implicits.
Arguments state : clear implicits.
