(** What the context managers should do. *)
From Verif Require Import Base ContextModel.
Local Open Scope Z_scope.

(** ** Timer *)
(** The depth of nesting after the events (last one first). *)
Fixpoint depth (past : list event) : nat :=
  match past with
  | [] => 0
  | Enter :: p => S (depth p)
  | Exit :: p => pred (depth p)
  | _ :: p => depth p
  end.
(** There is never an exit without an enter, and no reset inside a context. *)
Fixpoint well_nested (past : list event) : Prop :=
  match past with
  | [] => True
  | Exit :: p => (0 < depth p)%nat /\ well_nested p
  | Reset :: p => depth p = 0%nat /\ well_nested p
  | _ :: p => well_nested p
  end.
(** The time spent inside a context, since the last reset, or since the last outermost entry if not cumulative. *)
Fixpoint time_inside (cumul : bool) (past : list event) : Z :=
  match past with
  | [] => 0
  | Tick d :: p => match depth p with O => time_inside cumul p | _ => time_inside cumul p + d end
  | Enter :: p => match depth p with O => if cumul then time_inside cumul p else 0 | _ => time_inside cumul p end
  | Exit :: p => time_inside cumul p
  | Reset :: p => 0
  end.

(** ** Interrupts: what a block does when signals are only recorded.  The works it does, the number of signals that
    arrive, the exception it raises; an uninterruptible block inside it raises KeyboardInterrupt at its end if a signal
    has arrived. *)
Fixpoint no_interruptible (p : block) : Prop :=
  match p with
  | Interruptible _ => False
  | Seq p q => no_interruptible p /\ no_interruptible q
  | Try p | Uninterruptible p => no_interruptible p
  | _ => True
  end.
Fixpoint plain (p : block) : Prop :=
  match p with
  | Interruptible _ | Uninterruptible _ => False
  | Seq p q => plain p /\ plain q
  | Try p => plain p
  | _ => True
  end.
Fixpoint works (p : block) : list nat * nat * option exn :=
  match p with
  | Work n => ([n], 0%nat, None)
  | Signal => ([], 1%nat, None)
  | RaiseB e => ([], 0%nat, Some e)
  | Nop => ([], 0%nat, None)
  | Seq p q => let '(w, n, o) := works p in
               match o with
               | Some e => (w, n, Some e)
               | None => let '(w', n', o') := works q in (w ++ w', (n + n')%nat, o')
               end
  | Try p => let '(w, n, o) := works p in (w, n, None)
  | Uninterruptible p => let '(w, n, o) := works p in
                         (w, 0%nat, match o with Some e => Some e | None => if Nat.eqb n 0 then None else Some KeyboardInterrupt end)
  | Interruptible p => works p
  end.
(** The same block, had no signal arrived. *)
Fixpoint quiet (p : block) : block :=
  match p with
  | Signal => Nop
  | Seq p q => Seq (quiet p) (quiet q)
  | Try p => Try (quiet p)
  | Uninterruptible p => Uninterruptible (quiet p)
  | Interruptible p => Interruptible (quiet p)
  | p => p
  end.

(** ** RuleManager: no manager is entered again while it is active.  [active]: whether each manager in scope is. *)
Fixpoint set_nth (i : nat) (l : list bool) : list bool :=
  match l, i with
  | [], _ => []
  | _ :: l', O => true :: l'
  | b :: l', S i' => b :: set_nth i' l'
  end.
Fixpoint no_reentry (active : list bool) (p : rblock) : Prop :=
  match p with
  | RSeq p q => no_reentry active p /\ no_reentry active q
  | RTry p => no_reentry active p
  | RWith i _ p => nth i active false = false /\ no_reentry (false :: set_nth i active) p
  | _ => True
  end.
(** The managers in scope are different objects and already exist. *)
Definition good_env (env : list nat) (s : rstate) : Prop := NoDup env /\ forall m, In m env -> (m < nmgr s)%nat.
(** The value requested by the keywords. *)
Definition requested (kw : list (nat * Z)) (k : nat) : option Z := lookup k (rev kw).
