(** Proxied operators, proxy.py, and the single-process MPI stand-in, utils/fake_MPI.py. *)
From Verif Require Import Base.

(** ** Proxies *)
(** The associated operators of a proxy: ProxyOperator itself and the seven classes of proxy.py 171-203. *)
Inductive assoc := SelfOp | C | T | H | I | IC | IT | IH.

(** An operator is an object identified by a number; the callback [cb i n] is the object returned by the n-th call, for
    the index i, or None if it raises an exception.  Operator.delete, core.py 250-276, turns the object and its associated
    operators into empty shells. *)
Record pstate := {
  cnum : nat;               (* common[0] *)
  cobj : nat;               (* common[1] *)
  calls : list nat;         (* the indices with which the callback has been called, the last one first *)
  objects : list nat;       (* the objects it returned, the last one first *)
  deleted : nat -> bool
}.

Section Proxy.
Variable cb : nat -> nat -> option nat.

(** proxy_group, 252-270: the operator 0 is obtained for its attributes. *)
Definition proxy_group : option pstate :=
  match cb 0 0 with
  | None => None
  | Some o => Some {| cnum := 0; cobj := o; calls := [0]; objects := [o]; deleted := fun _ => false |}
  end.

(** ProxyBase.get_operator, 18-22: the previous operator is deleted, then the callback is called, then common is set. *)
Definition get_operator (number : nat) (s : pstate) : pstate * option nat :=
  if cnum s =? number then (s, Some (cobj s))
  else
    let del := fun o => (o =? cobj s) || deleted s o in
    match cb number (length (calls s)) with
    | None => ({| cnum := cnum s; cobj := cobj s; calls := number :: calls s; objects := objects s; deleted := del |}, None)
    | Some o => ({| cnum := number; cobj := o; calls := number :: calls s; objects := o :: objects s; deleted := del |},
                 Some o)
    end.

(** A use of a proxy: a call or the access to an attribute goes through get_operator and the associated operator of the
    kind of the proxy, 24-29, 167-168 and 171-203; the six methods on shapes use the cached operator as it is, 31-47. *)
Inductive shape_method := ReshapeIn | ReshapeOut | ToShapeIn | ToShapeOut | ValidateIn | ValidateOut.
Inductive use := Call (number : nat) (a : assoc) | Shape (number : nat) (a : assoc) (m : shape_method).

(** The classes of the associated proxies, 171-203: those derived from ProxyReverseBase, 66-83, exchange input and
    output. *)
Definition reversed (a : assoc) : bool :=
  match a with SelfOp | C | IT | IH => false | T | H | I | IC => true end.
Definition exchange (m : shape_method) : shape_method :=
  match m with
  | ReshapeIn => ReshapeOut | ReshapeOut => ReshapeIn | ToShapeIn => ToShapeOut | ToShapeOut => ToShapeIn
  | ValidateIn => ValidateOut | ValidateOut => ValidateIn
  end.

(** What is done, on which object: an associated operator is called, or a method of the operator itself. *)
Inductive effect :=
| Called (o : nat) (a : assoc)
| Shaped (o : nat) (m : shape_method)
| Dead (o : nat)           (* the object has been deleted: its methods raise *)
| Failed.                  (* the exception of the callback *)
Definition do_use (u : use) (s : pstate) : pstate * effect :=
  match u with
  | Call i a => match get_operator i s with
                | (s', Some o) => (s', if deleted s' o then Dead o else Called o a)
                | (s', None) => (s', Failed)
                end
  | Shape i a m => (s, if deleted s (cobj s) then Dead (cobj s)
                       else Shaped (cobj s) (if reversed a then exchange m else m))
  end.
Fixpoint do_uses (us : list use) (s : pstate) : pstate * list effect :=
  match us with
  | [] => (s, [])
  | u :: us' => let (s1, e) := do_use u s in let (s2, es) := do_uses us' s1 in (s2, e :: es)
  end.
End Proxy.

(** ** fake_MPI.Comm, 104-198: a communicator of rank 0 and size 1 *)
(** allgather 118-119, allreduce 121-122, bcast 124-125, gather 127-128; the operation is ignored *)
Definition fake_allreduce {A} (x : A) : A := x.
Definition fake_bcast {A} (x : A) : A := x.
Definition fake_gather {A} (x : A) : list A := [x].
Definition fake_allgather {A} (x : A) : list A := [x].
(** Allgatherv and Allreduce, 130-142, for receive buffers given as [array, type] lists (see as_mpi, utils/mpi.py): None is IN_PLACE, the output is left as it is; otherwise it becomes the input. *)
Definition fake_Allreduce {A} (i : option A) (o : A) : A := match i with None => o | Some x => x end.

(** Attribute caching, 147-188.  A trace of operations; the communicators are numbered (0 is the first one; Dup makes a
    new one without attributes), keyvals are designated by the rank of their creation: [handles] gives the number
    returned by Create_keyval. *)
Definition attrs := list (nat * Z).
Fixpoint aget (k : nat) (d : attrs) : option Z :=
  match d with [] => None | (k', v) :: d' => if k =? k' then Some v else aget k d' end.
Definition adel (k : nat) (d : attrs) : attrs := filter (fun p => negb (fst p =? k)) d.
Definition aset (k : nat) (v : Z) (d : attrs) : attrs := (k, v) :: adel k d.

Record mstate := { keyvals : list nat; handles : list nat; comms : list attrs }.
Inductive mop :=
| CreateKeyval | FreeKeyval (j : nat) | Dup (c : nat)
| GetAttr (c j : nat) | SetAttr (c j : nat) (v : Z) | DeleteAttr (c j : nat).
Inductive mres := RUnit | RVal (v : option Z) | RErr (e : exn).

Definition maxl (l : list nat) : nat := fold_right Nat.max 0 l.
Definition mem (k : nat) (l : list nat) : bool := existsb (Nat.eqb k) l.
Fixpoint upd {A} (l : list A) (i : nat) (x : A) : list A :=
  match l, i with [], _ => [] | _ :: l', O => x :: l' | y :: l', S i' => y :: upd l' i' x end.

Definition mexec (o : mop) (s : mstate) : mstate * mres :=
  match o with
  | CreateKeyval =>          (* 159-165 *)
      let id := match keyvals s with [] => 1 | _ => maxl (keyvals s) + 1 end in
      ({| keyvals := id :: keyvals s; handles := handles s ++ [id]; comms := comms s |}, RUnit)
  | FreeKeyval j =>          (* 168-171 *)
      let k := nth j (handles s) 0 in
      if mem k (keyvals s) then
        ({| keyvals := filter (fun x => negb (x =? k)) (keyvals s); handles := handles s; comms := comms s |}, RUnit)
      else (s, RErr ValueError)
  | Dup c => ({| keyvals := keyvals s; handles := handles s; comms := comms s ++ [[]] |}, RUnit)     (* 147-148 *)
  | GetAttr c j =>           (* 178-183 *)
      let k := nth j (handles s) 0 in
      if mem k (keyvals s) then (s, RVal (aget k (nth c (comms s) []))) else (s, RErr ValueError)
  | SetAttr c j v =>         (* 185-188 *)
      let k := nth j (handles s) 0 in
      if mem k (keyvals s) then
        ({| keyvals := keyvals s; handles := handles s; comms := upd (comms s) c (aset k v (nth c (comms s) [])) |}, RUnit)
      else (s, RErr ValueError)
  | DeleteAttr c j =>        (* 173-176 *)
      let k := nth j (handles s) 0 in
      match aget k (nth c (comms s) []) with
      | Some _ => ({| keyvals := keyvals s; handles := handles s; comms := upd (comms s) c (adel k (nth c (comms s) [])) |}, RUnit)
      | None => (s, RErr ValueError)
      end
  end.
Fixpoint mexecs (os : list mop) (s : mstate) : mstate * list mres :=
  match os with
  | [] => (s, [])
  | o :: os' => let (s1, r) := mexec o s in let (s2, rs) := mexecs os' s1 in (s2, r :: rs)
  end.
Definition mstart : mstate := {| keyvals := []; handles := []; comms := [[]] |}.
