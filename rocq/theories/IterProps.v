(** Properties of the iterative algorithms (C32). *)
From Verif Require Import Base IterModel IterSpec IterProofs.

(** Whatever the buffer handling (in place, preallocated or not, initial state reused or not), and for any sequence of
    next, run, cont and restart, with stop conditions, exceptions and interrupts: the exceptions raised, the number of
    iterations and the values of x, x_old, x_old2... are those of the recursion on plain values, in which x_new becomes
    x, x becomes x_old and so on, the normal stop condition being checked first, then the abnormal one, before each
    iteration. *)
Theorem C32_history {V} (a0 : algo V) (h : nat -> V) (t : nat) (ini : list (list nat)) (s : state V) (cs : list command) :
  let a := set_buffer_handling a0 in let h0 := map (map h) ini in
  good_algo a0 -> good_init a0 t ini -> new_algo a h t ini = Ok s ->
  let r := execs a cs s in let q := pure_execs a h0 cs (pure0 a) in
  snd r = snd q /\ niter (fst r) = pn (fst q) /\ forall v, ph (fst q) = Some v -> values (fst r) = v.
Proof. exact (history a0 h t ini s cs). Qed.
Print Assumptions C32_history.

(** The arrays given as initial values are never modified, unless the user allows it. *)
Theorem C32_initial_untouched {V} (a0 : algo V) (h : nat -> V) (t : nat) (ini : list (list nat)) (s : state V) (cs : list command) :
  let a := set_buffer_handling a0 in
  good_algo a0 -> good_init a0 t ini -> new_algo a h t ini = Ok s -> reuse_initial_state a0 = false ->
  map (map (heap (fst (execs a cs s)))) (init (fst (execs a cs s))) = map (map h) ini.
Proof. exact (initial_untouched a0 h t ini s cs). Qed.
Print Assumptions C32_initial_untouched.

(** k iterations then m are the same as k + m (also if the last m stop). *)
Theorem C32_next_add {V} (a0 : algo V) (k m : nat) (s : state V) : let a := set_buffer_handling a0 in
  reachable a0 s -> snd (next a k s) = None ->
  observed (fst (next a m (fst (next a k s)))) = observed (fst (next a (k + m) s)) /\
  snd (next a m (fst (next a k s))) = snd (next a (k + m) s).
Proof. exact (next_add a0 k m s). Qed.
Print Assumptions C32_next_add.

(** An interrupt leaves the algorithm in the state after some whole number of iterations, from which going on gives the
    same values as if it had not been interrupted. *)
Theorem C32_interrupted {V} (a0 : algo V) (n : nat) (s : state V) : let a := set_buffer_handling a0 in
  reachable a0 s -> snd (next a n s) = Some KeyboardInterrupt ->
  exists k, 0 < k <= n /\
    snd (next (quiet a) k s) = None /\ observed (fst (next a n s)) = observed (fst (next (quiet a) k s)) /\
    forall m, observed (fst (next (quiet a) m (fst (next a n s)))) = observed (fst (next (quiet a) (k + m) s)) /\
              snd (next (quiet a) m (fst (next a n s))) = snd (next (quiet a) (k + m) s).
Proof. exact (interrupted a0 n s). Qed.
Print Assumptions C32_interrupted.

(** Restarting, at any time, is like running a new algorithm from the initial values. *)
Theorem C32_restart {V} (a0 : algo V) (h : nat -> V) (t : nat) (ini : list (list nat)) (s : state V) (cs : list command)
    (n : option nat) : let a := set_buffer_handling a0 in
  good_algo a0 -> good_init a0 t ini -> new_algo a h t ini = Ok s -> reuse_initial_state a0 = false ->
  (forall k, interrupt a0 k = false) ->
  observed (fst (restart a n (fst (execs a cs s)))) = observed (fst (run a n s)) /\
  snd (restart a n (fst (execs a cs s))) = snd (run a n s).
Proof. exact (restart_fresh a0 h t ini s cs n). Qed.
Print Assumptions C32_restart.

(** FINDING: run(0) does not do zero iterations but an unlimited number of them. *)
Theorem C32_run_zero_refuted : exists (a : algo nat) s, reachable a s /\ niter s = order a - 1 /\
  niter (fst (run (set_buffer_handling a) (Some 0) s)) <> niter s.
Proof. exact run_zero_refuted. Qed.
Print Assumptions C32_run_zero_refuted.

(** FINDING: cont before any iteration is rejected only for recursions of order one. *)
Theorem C32_cont_not_started_refuted : exists (a : algo nat) s, reachable a s /\ niter s = order a - 1 /\ hists s = [[]] /\
  snd (cont (set_buffer_handling a) s) <> Some RuntimeError.
Proof. exact cont_not_started_refuted. Qed.
Print Assumptions C32_cont_not_started_refuted.

(** Fibonacci numbers with three recycled buffers, interrupted at the third iteration, continued, restarted. *)
Example C32_case :
  let a0 := fibonacci 20 (fun t => t =? 2) in let a := set_buffer_handling a0 in
  good_algo a0 /\ good_init a0 2 [[1; 0]] /\
  exists s, new_algo a (fun i => i) 2 [[1; 0]] = Ok s /\
  (let r := execs a [Run None] s in snd r = [Some KeyboardInterrupt] /\ observed (fst r) = (4, [[3; 2]])) /\
  (let r := execs a [Run None; Cont] s in snd r = [Some KeyboardInterrupt; None] /\ observed (fst r) = (9, [[34; 21]])) /\
  (let r := execs a [Run None; Cont; Restart (Some 3)] s in snd r = [Some KeyboardInterrupt; None; None] /\ observed (fst r) = (4, [[3; 2]])).
Proof.
  split; [apply fibonacci_good|]. split.
  - split; simpl; [intros v [<-|[]]; auto|intros x [<-|[<-|[]]]; lia].
  - eexists. split; [reflexivity|]. repeat split; reflexivity.
Qed.
