(** What an iterative algorithm should do: the same commands on plain values, without buffers. *)
From Verif Require Import Base IterModel.

Section IterSpec.
Context {V : Type}.

(** The number of iterations; the values of x, x_old... of each variable (None before the initialisation); the number of
    iterations since the beginning. *)
Record pure := { pn : nat; ph : option (list (list V)); pt : nat }.

(** x_new becomes x, x becomes x_old, ... and the oldest value is forgotten. *)
Definition shift (vs : list V) (h : list (list V)) : list (list V) :=
  map (fun p => removelast (fst p :: snd p)) (combine vs h).

Definition pure_turn (a : algo V) (n : nat) (h : list (list V)) (t : nat) : pure * option exn :=
  if normal_stop a n h then ({| pn := n; ph := Some h; pt := t |}, Some StopIteration)
  else if abnormal_stop a n h then ({| pn := n; ph := Some h; pt := t |}, Some AbnormalStopIteration)
  else
    let (vs, o) := iteration a (S n) h in
    match o with
    | Fine => ({| pn := S n; ph := Some (shift vs h); pt := S t |}, if interrupt a t then Some KeyboardInterrupt else None)
    | Stops => ({| pn := S n; ph := Some (shift vs h); pt := S t |}, Some StopIteration)
    | AbnormalStops =>
        (* x_new is not made the current value; an in-place iteration has already changed it *)
        ({| pn := S n; ph := Some (if inplace_recursion a then shift vs h else h); pt := S t |}, Some AbnormalStopIteration)
    end.
Fixpoint pure_loop (a : algo V) (k : nat) (n : nat) (h : list (list V)) (t : nat) : pure * option exn :=
  match k with
  | O => ({| pn := n; ph := Some h; pt := t |}, None)
  | S k' => match pure_turn a n h t with
            | (p, None) => match ph p with Some h' => pure_loop a k' (pn p) h' (pt p) | None => (p, None) end
            | r => r
            end
  end.

(** [h0]: the initial values.  The initial values are loaded when no iteration has been done. *)
Definition pure_next (a : algo V) (h0 : list (list V)) (k : nat) (p : pure) : pure * option exn :=
  let h := if pn p =? order a - 1 then h0 else match ph p with Some h => h | None => h0 end in
  pure_loop a k (pn p) h (pt p).
Definition pure_swallow (r : pure * option exn) : pure * option exn :=
  match r with (s, Some StopIteration) => (s, None) | r => r end.
Definition pure_run (a : algo V) (h0 : list (list V)) (n : option nat) (p : pure) : pure * option exn :=
  if order a - 1 <? pn p then (p, Some RuntimeError)
  else pure_swallow (pure_next a h0 (match n with None | Some O => int_max a | Some n => n end) p).
Definition pure_exec (a : algo V) (h0 : list (list V)) (c : command) (p : pure) : pure * option exn :=
  match c with
  | Next n => pure_next a h0 n p
  | Run n => pure_run a h0 n p
  | Cont => if pn p =? 0 then (p, Some RuntimeError) else pure_swallow (pure_next a h0 (int_max a) p)
  | Restart n => if (order a - 1 <? pn p) && reuse_initial_state a then (p, Some RuntimeError)
                 else pure_run a h0 n {| pn := order a - 1; ph := Some h0; pt := pt p |}
  end.
Fixpoint pure_execs (a : algo V) (h0 : list (list V)) (cs : list command) (p : pure) : pure * list (option exn) :=
  match cs with
  | [] => (p, [])
  | c :: cs' => let (p1, o) := pure_exec a h0 c p in let (p2, os) := pure_execs a h0 cs' p1 in (p2, o :: os)
  end.
Definition pure0 (a : algo V) : pure := {| pn := order a - 1; ph := None; pt := 0 |}.

(** The values given by the user are arrays that exist, as many for each variable as the order of the recursion, and the
    iteration method gives one value for each variable. *)
Definition good_init (a : algo V) (t : nat) (ini : list (list nat)) : Prop :=
  (forall v, In v ini -> length v = if inplace_recursion a then 1 else order a) /\
  (forall x, In x (concat ini) -> x < t).
Definition good_algo (a : algo V) : Prop :=
  1 <= order a /\ forall n h, length (fst (iteration a n h)) = length h.

(** What can be observed in a state. *)
Definition observed (s : state V) : nat * list (list V) := (niter s, values s).

(** A state that some sequence of commands leads to, from the construction of the algorithm. *)
Definition reachable (a0 : algo V) (s : state V) : Prop :=
  exists h t ini s0 cs, good_algo a0 /\ good_init a0 t ini /\ new_algo (set_buffer_handling a0) h t ini = Ok s0 /\
  s = fst (execs (set_buffer_handling a0) cs s0).

(** The same algorithm, when CTRL-C is not pressed any more. *)
Definition quiet (a : algo V) : algo V :=
  {| iteration := iteration a; normal_stop := normal_stop a; abnormal_stop := abnormal_stop a; order := order a;
     inplace_recursion := inplace_recursion a; allocate_new_state := allocate_new_state a;
     reuse_initial_state := reuse_initial_state a; int_max := int_max a; interrupt := fun _ => false |}.
End IterSpec.
Arguments pure : clear implicits.
