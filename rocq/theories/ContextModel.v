(** Context managers: Timer, uninterruptible, interruptible, setting (utils/misc.py) and RuleManager (rules.py). *)
From Verif Require Import Base.
Local Open Scope Z_scope.

(** ** Timer, misc.py 1068-1141.  [clock] is the value that timer() would return; only [Tick] lets time pass.  The
    message printed on exit is not modelled. *)
Record timer := { cumulative : bool; level : Z; elapsed_ : Z; start : Z; clock : Z }.
Inductive event := Tick (d : Z) | Enter | Exit | Reset.

(** __init__, 1112-1116 *)
Definition new_timer (cumul : bool) (now : Z) : timer :=
  {| cumulative := cumul; level := 0; elapsed_ := 0; start := 0; clock := now |}.

(** __enter__, 1118-1124 *)
Definition enter (t : timer) : timer :=
  let l := level t + 1 in
  if l =? 1 then
    {| cumulative := cumulative t; level := l; elapsed_ := if cumulative t then elapsed_ t else 0; start := clock t;
       clock := clock t |}
  else {| cumulative := cumulative t; level := l; elapsed_ := elapsed_ t; start := start t; clock := clock t |}.

(** __exit__, 1126-1132 *)
Definition exit (t : timer) : timer :=
  let l := level t - 1 in
  if 0 <? l then {| cumulative := cumulative t; level := l; elapsed_ := elapsed_ t; start := start t; clock := clock t |}
  else {| cumulative := cumulative t; level := l; elapsed_ := elapsed_ t + (clock t - start t); start := start t;
          clock := clock t |}.

(** reset, 1140-1141 *)
Definition reset (t : timer) : timer :=
  {| cumulative := cumulative t; level := level t; elapsed_ := 0; start := start t; clock := clock t |}.

(** The property elapsed, 1134-1138 *)
Definition elapsed (t : timer) : Z :=
  if level t =? 0 then elapsed_ t else elapsed_ t + clock t - start t.

Definition step (t : timer) (e : event) : timer :=
  match e with
  | Tick d => {| cumulative := cumulative t; level := level t; elapsed_ := elapsed_ t; start := start t; clock := clock t + d |}
  | Enter => enter t
  | Exit => exit t
  | Reset => reset t
  end.

(** [past]: the events so far, the last one first. *)
Fixpoint run_timer (cumul : bool) (now : Z) (past : list event) : timer :=
  match past with
  | [] => new_timer cumul now
  | e :: past' => step (run_timer cumul now past') e
  end.

(** ** Interrupts.  A block of code is a tree of statements; [Signal] is the arrival of a SIGINT (Python runs the
    handler between two bytecodes of the block; its arrival inside the code of the context managers themselves is not
    modelled). *)
Inductive handler :=
| DefaultInt                (* signal.default_int_handler: raises KeyboardInterrupt *)
| Recorder (frame : nat)    (* the signal_handler closure of an uninterruptible block *)
| Other (n : nat).          (* a handler of the user that returns *)

Inductive block :=
| Work (n : nat)            (* an observable effect *)
| Signal
| RaiseB (e : exn)
| Nop
| Seq (p q : block)
| Try (p : block)           (* try: p except BaseException: pass *)
| Uninterruptible (p : block)
| Interruptible (p : block).

Record sigstate := {
  hdl : handler;
  pressed : nat -> bool;    (* ctrlc_is_pressed of each uninterruptible frame *)
  nframe : nat;
  effects : list nat;       (* works done, in order *)
  handled : nat             (* number of times a handler of the user was called *)
}.
Definition with_hdl (s : sigstate) (h : handler) : sigstate :=
  {| hdl := h; pressed := pressed s; nframe := nframe s; effects := effects s; handled := handled s |}.
Definition press (s : sigstate) (k : nat) (b : bool) : sigstate :=
  {| hdl := hdl s; pressed := fun j => if Nat.eqb j k then b else pressed s j; nframe := nframe s; effects := effects s;
     handled := handled s |}.

(** None: the block ends normally; Some e: the exception e is raised. *)
Fixpoint exec (p : block) (s : sigstate) : sigstate * option exn :=
  match p with
  | Work n => ({| hdl := hdl s; pressed := pressed s; nframe := nframe s; effects := effects s ++ [n];
                  handled := handled s |}, None)
  | Signal => match hdl s with
              | DefaultInt => (s, Some KeyboardInterrupt)
              | Recorder k => (press s k true, None)
              | Other _ => ({| hdl := hdl s; pressed := pressed s; nframe := nframe s; effects := effects s;
                               handled := S (handled s) |}, None)
              end
  | RaiseB e => (s, Some e)
  | Nop => (s, None)
  | Seq p q => match exec p s with (s', None) => exec q s' | r => r end
  | Try p => (fst (exec p s), None)
  | Uninterruptible p =>
      (* misc.py 1155-1174 *)
      let old := hdl s in
      let k := nframe s in
      let s1 := press {| hdl := Recorder k; pressed := pressed s; nframe := S k; effects := effects s;
                         handled := handled s |} k false in
      let (s2, o) := exec p s1 in
      let s3 := with_hdl s2 old in
      match o with
      | Some e => (s3, Some e)
      | None => if pressed s3 k then (s3, Some KeyboardInterrupt) else (s3, None)
      end
  | Interruptible p =>
      (* misc.py 563-568: no try/finally *)
      let old := hdl s in
      match exec p (with_hdl s DefaultInt) with
      | (s2, None) => (with_hdl s2 old, None)
      | r => r
      end
  end.

(** uninterruptible_if, misc.py 1178-1184 *)
Definition uninterruptible_if (c : bool) (p : block) : block := if c then Uninterruptible p else p.

(** ** setting, misc.py 851-863.  An object has attributes of its own and those of its class. *)
Record obj := { own : nat -> option Z; cls : nat -> option Z }.
Definition getattr (o : obj) (a : nat) : option Z := match own o a with Some v => Some v | None => cls o a end.
Definition setattr (o : obj) (a : nat) (v : Z) : obj :=
  {| own := fun b => if Nat.eqb b a then Some v else own o b; cls := cls o |}.
Definition delattr (o : obj) (a : nat) : result obj :=
  match own o a with
  | None => Raise AttributeError
  | Some _ => Ok {| own := fun b => if Nat.eqb b a then None else own o b; cls := cls o |}
  end.

(** The body of the with statement is any function of the object. *)
Definition with_setting (o : obj) (a : nat) (v : Z) (body : obj -> obj * option exn) : obj * option exn :=
  let old := getattr o a in
  let (o2, r) := body (setattr o a v) in
  match r with
  | Some e => (o2, Some e)                  (* no try/finally around the yield *)
  | None => match old with
            | Some v0 => (setattr o2 a v0, None)
            | None => match delattr o2 a with Ok o3 => (o3, None) | Raise e => (o2, Some e) end
            end
  end.

(** ** RuleManager, rules.py 257-440.  The global dictionary _triggers is an association list; keys are numbers. *)
Definition triggers := list (nat * Z).
Fixpoint lookup (k : nat) (d : triggers) : option Z :=
  match d with
  | [] => None
  | (k', v) :: d' => if Nat.eqb k k' then Some v else lookup k d'
  end.
Fixpoint put (k : nat) (v : Z) (d : triggers) : triggers :=
  match d with
  | [] => [(k, v)]
  | (k', v') :: d' => if Nat.eqb k k' then (k', v) :: d' else (k', v') :: put k v d'
  end.
Definition update (d : triggers) (kw : list (nat * Z)) : triggers := fold_left (fun d kv => put (fst kv) (snd kv) d) kw d.

(** A manager only has the attributes _deferred_triggers and _old_triggers. *)
Record manager := { deferred : list (nat * Z); old_triggers : option triggers }.
Record rstate := { trig : triggers; mgrs : nat -> manager; nmgr : nat }.

(** Statements; managers are designated by their position in the list of those in scope: the one bound by the
    innermost [with ... as] first, the global rule_manager last. *)
Inductive rblock :=
| RNop
| RRaise (e : exn)
| RSeq (p q : rblock)
| RTry (p : rblock)
| RSet (k : nat) (v : Z)           (* rule_manager[k] = v, 326-329 *)
| RRegister (k : nat) (v : Z)      (* register, 376-385 *)
| RWith (i : nat) (kw : list (nat * Z)) (p : rblock).

Definition set_trig (s : rstate) (d : triggers) : rstate := {| trig := d; mgrs := mgrs s; nmgr := nmgr s |}.
Definition set_mgr (s : rstate) (m : nat) (g : manager) : rstate :=
  {| trig := trig s; mgrs := fun j => if Nat.eqb j m then g else mgrs s j; nmgr := nmgr s |}.

(** __call__, 306-311 *)
Definition rcall (s : rstate) (m : nat) (kw : list (nat * Z)) : rstate * option exn :=
  if forallb (fun kv => match lookup (fst kv) (trig s) with Some _ => true | None => false end) kw
  then (set_mgr s m {| deferred := kw; old_triggers := old_triggers (mgrs s m) |}, None)
  else (s, Some KeyError).

(** __enter__, 313-316, and __init__ of the new manager, 300-304 ([defaults]: what it loads when there is no rule). *)
Definition renter (defaults : triggers) (s : rstate) (m : nat) : rstate * nat :=
  let g := mgrs s m in
  let s1 := set_mgr s m {| deferred := deferred g; old_triggers := Some (trig s) |} in
  let d := update (trig s1) (deferred g) in
  let d := match d with [] => update d defaults | _ => d end in
  let s2 := set_mgr (set_trig s1 d) (nmgr s) {| deferred := []; old_triggers := None |} in
  ({| trig := trig s2; mgrs := mgrs s2; nmgr := S (nmgr s) |}, nmgr s).

(** __exit__, 318-321: the exception goes on. *)
Definition rexit (s : rstate) (m : nat) : rstate :=
  match old_triggers (mgrs s m) with Some d => set_trig s d | None => s end.

Fixpoint rexec (defaults : triggers) (p : rblock) (env : list nat) (s : rstate) : rstate * option exn :=
  match p with
  | RNop => (s, None)
  | RRaise e => (s, Some e)
  | RSeq p q => match rexec defaults p env s with (s', None) => rexec defaults q env s' | r => r end
  | RTry p => (fst (rexec defaults p env s), None)
  | RSet k v => match lookup k (trig s) with
                | Some _ => (set_trig s (put k v (trig s)), None)
                | None => (s, Some KeyError)
                end
  | RRegister k v => (set_trig s (put k v (trig s)), None)
  | RWith i kw p =>
      match nth_error env i with
      | None => (s, Some (OtherError 0))        (* NameError *)
      | Some m =>
          match rcall s m kw with
          | (s1, Some e) => (s1, Some e)
          | (s1, None) =>
              let (s2, new) := renter defaults s1 m in
              let (s3, o) := rexec defaults p (new :: env) s2 in
              (rexit s3 m, o)
          end
      end
  end.
