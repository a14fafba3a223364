(** Properties of the context managers (C30, C36, C37). *)
From Verif Require Import Base ContextModel ContextSpec ContextProofs.
Local Open Scope Z_scope.

(** ** C30: rule-switch contexts *)

(** Leaving [with manager(kw) as new: p] restores the switches that were active on entry, whatever p does, normally or
    by an exception, provided that no manager is entered again while it is active. *)
Theorem C30_restored_partial (defaults : triggers) (p : rblock) (i : nat) (kw : list (nat * Z)) (env : list nat)
    (active : list bool) (s : rstate) :
  length active = length env -> good_env env s -> no_reentry active (RWith i kw p) ->
  trig (fst (rexec defaults (RWith i kw p) env s)) = trig s.
Proof. exact (rules_restored defaults p i kw env active s). Qed.
Print Assumptions C30_restored_partial.

(** Inside, the requested switches have the requested values and the others are unchanged. *)
Theorem C30_inside (defaults : triggers) (s : rstate) (m : nat) (kw : list (nat * Z)) (s1 : rstate) (k : nat) :
  trig s <> [] -> rcall s m kw = (s1, None) ->
  lookup k (trig (fst (renter defaults s1 m))) = match requested kw k with Some v => Some v | None => lookup k (trig s) end.
Proof. exact (rules_inside defaults s m kw s1 k). Qed.
Print Assumptions C30_inside.

(** An unknown switch is rejected with KeyError; nothing changes and the body is not run. *)
Theorem C30_unknown (defaults : triggers) (s : rstate) (m i : nat) (kw : list (nat * Z)) (env : list nat) (p : rblock) :
  nth_error env i = Some m -> (exists k v, In (k, v) kw /\ lookup k (trig s) = None) ->
  rexec defaults (RWith i kw p) env s = (s, Some KeyError).
Proof. exact (unknown_rule defaults s m i kw env p). Qed.
Print Assumptions C30_unknown.

(** FINDING: entering the same manager again inside its own context loses the switches saved by the outer one:
    [with rule_manager(a=1): with rule_manager(a=0): pass] leaves a at 1. *)
Theorem C30_reentry_refuted : exists s p, good_env [0%nat] s /\
  trig (fst (rexec [] (RWith 0 [(0%nat, 1)] p) [0%nat] s)) <> trig s /\ p = RWith 1 [(0%nat, 0)] RNop.
Proof. exact rules_reentry_refuted. Qed.
Print Assumptions C30_reentry_refuted.

(** Two managers nested, the inner body changes a switch and raises; the exception is caught outside. *)
Example C30_case :
  let p := RTry (RWith 0 [(0%nat, 1)] (RWith 0 [(1%nat, 5)] (RSeq (RSet 0 7) (RRaise ValueError)))) in
  no_reentry [false] p /\ good_env [0%nat] rs0 /\
  trig (fst (rexec [] p [0%nat] rs0)) = trig rs0 /\
  snd (rexec [] (RWith 0 [(0%nat, 1)] (RWith 0 [(1%nat, 5)] (RSeq (RSet 0 7) (RRaise ValueError)))) [0%nat] rs0) = Some ValueError /\
  rexec [] (RWith 0 [(9%nat, 1)] RNop) [0%nat] rs0 = (rs0, Some KeyError).
Proof.
  simpl. repeat split; auto; try (repeat constructor; auto; fail). intros m [<-|[]]; simpl; lia.
Qed.

(** ** C36: timers *)

(** The time reported at any moment is the time spent inside the context (any nesting), over all uses if cumulative,
    since the last outermost entry if not, after the last reset. *)
Theorem C36_elapsed (cumul : bool) (now : Z) (past : list event) :
  well_nested past -> elapsed (run_timer cumul now past) = time_inside cumul past.
Proof. exact (timer_elapsed cumul now past). Qed.
Print Assumptions C36_elapsed.

(** FINDING: reset inside a context does not reset the time. *)
Theorem C36_reset_inside_refuted : exists past, elapsed (run_timer true 0 (Reset :: past)) <> 0.
Proof. exact reset_inside. Qed.
Print Assumptions C36_reset_inside_refuted.

Example C36_case :
  let past := rev [Tick 1; Enter; Tick 2; Enter; Tick 3; Exit; Tick 4; Exit; Tick 50; Enter; Tick 6] in
  well_nested past /\ elapsed (run_timer true 100 past) = 15 /\ elapsed (run_timer false 100 past) = 6 /\
  time_inside true past = 15.
Proof. simpl; repeat split; auto; lia. Qed.

(** ** C37: interrupts and settings *)

(** Inside uninterruptible, interrupts never break a block that has no context manager of its own: it has the same
    effects as if no signal had arrived, and ends in the same way but for one KeyboardInterrupt after it if a signal
    has arrived. *)
Theorem C37_not_broken (p : block) (s : sigstate) : plain p ->
  let with_signals := exec (Uninterruptible p) s in
  let without := exec (Uninterruptible (quiet p)) s in
  effects (fst with_signals) = effects (fst without) /\ hdl (fst with_signals) = hdl (fst without) /\
  (forall e, snd without = Some e -> snd with_signals = Some e) /\
  (snd without = None -> snd with_signals = if Nat.eqb (snd (fst (works p))) 0 then None else Some KeyboardInterrupt).
Proof. exact (block_not_broken p s). Qed.
Print Assumptions C37_not_broken.

(** The same with uninterruptible blocks nested inside at any depth, each re-raising at its own end. *)
Theorem C37_nested_partial (p : block) (s : sigstate) : no_interruptible p ->
  let '(w, n, o) := works p in
  let r := exec (Uninterruptible p) s in
  hdl (fst r) = hdl s /\ effects (fst r) = effects s ++ w /\ handled (fst r) = handled s /\
  snd r = match o with Some e => Some e | None => if Nat.eqb n 0 then None else Some KeyboardInterrupt end.
Proof. exact (uninterruptible_spec p s). Qed.
Print Assumptions C37_nested_partial.

(** The previous handler is restored on every exit, whatever the block does. *)
Theorem C37_handler_restored (p : block) (s : sigstate) : hdl (fst (exec (Uninterruptible p) s)) = hdl s.
Proof. exact (handler_restored p s). Qed.
Print Assumptions C37_handler_restored.

(** interruptible restores it when its block ends normally. *)
Theorem C37_interruptible_partial (p : block) (s s' : sigstate) : exec (Interruptible p) s = (s', None) -> hdl s' = hdl s.
Proof. exact (interruptible_restores p s s'). Qed.
Print Assumptions C37_interruptible_partial.

(** FINDING: an interrupt is lost when the block raises another exception after it. *)
Theorem C37_lost_refuted : exists p s, plain p /\ snd (fst (works p)) = 1%nat /\
  snd (exec (Uninterruptible p) s) <> Some KeyboardInterrupt.
Proof. exact interrupt_lost_refuted. Qed.
Print Assumptions C37_lost_refuted.

(** FINDING: an interrupt inside a nested uninterruptible block breaks the enclosing one. *)
Theorem C37_nested_refuted : exists p s,
  effects (fst (exec (Uninterruptible p) s)) <> effects (fst (exec (Uninterruptible (quiet p)) s)) /\ no_interruptible p.
Proof. exact nested_refuted. Qed.
Print Assumptions C37_nested_refuted.

(** FINDING: interruptible does not restore the handler when its block is interrupted. *)
Theorem C37_interruptible_refuted : exists p s, hdl (fst (exec (Interruptible p) s)) <> hdl s /\
  p = Signal /\ snd (exec (Interruptible p) s) = Some KeyboardInterrupt.
Proof. exact interruptible_refuted. Qed.
Print Assumptions C37_interruptible_refuted.

(** setting: the attribute has the given value inside, and its former value (or absence) after a normal exit. *)
Theorem C37_setting_inside (o : obj) (a : nat) (v : Z) :
  getattr (setattr o a v) a = Some v /\ forall b, b <> a -> getattr (setattr o a v) b = getattr o b.
Proof. exact (setting_inside o a v). Qed.
Print Assumptions C37_setting_inside.

Theorem C37_setting_partial (o : obj) (a : nat) (v : Z) (body : obj -> obj * option exn) (o' : obj) :
  with_setting o a v body = (o', None) -> let o2 := fst (body (setattr o a v)) in cls o2 = cls o ->
  getattr o' a = getattr o a /\ forall b, b <> a -> getattr o' b = getattr o2 b.
Proof. exact (setting_restores o a v body o'). Qed.
Print Assumptions C37_setting_partial.

(** FINDING: not after an exception. *)
Theorem C37_setting_refuted : exists o a v body, getattr (fst (with_setting o a v body)) a <> getattr o a /\
  forall o, fst (body o) = o.
Proof. exact setting_refuted. Qed.
Print Assumptions C37_setting_refuted.

Example C37_case :
  let p := Seq (Work 1) (Seq Signal (Seq (Try (Seq Signal (RaiseB ValueError))) (Work 2))) in
  plain p /\ effects (fst (exec (Uninterruptible p) sig0)) = [1%nat; 2%nat] /\
  snd (exec (Uninterruptible p) sig0) = Some KeyboardInterrupt /\ effects (fst (exec p sig0)) = [1%nat] /\
  (exists o', with_setting {| own := fun _ => None; cls := fun _ => Some 3 |} 0 4 (fun o => (o, None)) = (o', None) /\ getattr o' 0 = Some 3).
Proof. simpl; repeat split; auto. eexists; split; reflexivity. Qed.
