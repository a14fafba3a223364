(** What a user expects of the reports of acg and hacg: see C68. *)
From Coq Require Import List Arith Bool String.
From Verif Require Import Base Algebra Ofield ReportModel.
Import ListNotations.

Section Spec.
Context {K : ofield} {V F : Type} (c g : nat -> K) (x : nat -> V).
Local Open Scope cr_scope.
(** the decrease of the criterion in the iteration k, relative to the first criterion *)
Definition residual (k : nat) : K := let d := c (k - 1) - c k in div (if ltb d 0 then - d else d) (c 0).

(** the condition given by the arguments of StopCondition, after the iteration k *)
Definition holds_any (sc : stop_condition K) (k : nat) : Prop :=
  (exists m, sc_maxiter sc = Some m /\ (m <= k)%nat) \/ (exists t, sc_tol sc = Some t /\ lt (residual k) t)
  \/ (exists t, sc_gtol sc = Some t /\ lt (g k) t).
Definition holds_all (sc : stop_condition K) (k : nat) : Prop :=
  (forall m, sc_maxiter sc = Some m -> (m <= k)%nat) /\ (forall t, sc_tol sc = Some t -> lt (residual k) t)
  /\ (forall t, sc_gtol sc = Some t -> lt (g k) t).
Definition holds (sc : stop_condition K) (k : nat) : Prop := if sc_all sc then holds_all sc k else holds_any sc k.
(** N is the first iteration, from 1 on, after which the condition holds *)
Definition first_stop (sc : stop_condition K) (N : nat) : Prop :=
  (1 <= N)%nat /\ holds sc N /\ forall k, (1 <= k < N)%nat -> ~ holds sc k.

(** the lines printed, without their residuals; the files written; the figures *)
Definition line (e : event K V F) : list (nat * K) := match e with Line k v _ => [(k, v)] | _ => [] end.
Definition file (e : event K V F) : list (F * nat * K * V) := match e with Saved f k v s => [(f, k, v, s)] | _ => [] end.
Definition figure (e : event K V F) : list (nat * V) := match e with Drawn d _ s => [(d, s)] | _ => [] end.
Definition all_of {B} (p : event K V F -> list B) (es : list (event K V F)) : list B := flat_map p es.
(** the iterations 1, ..., N *)
Definition iterations (N : nat) : list nat := seq 1 N.
End Spec.
