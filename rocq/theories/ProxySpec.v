(** What proxies and a communicator of size one should do. *)
From Verif Require Import Base ProxyModel.

(** ** Proxies *)
(** The callback returns a new object at each call, and never fails. *)
Definition fresh (cb : nat -> nat -> option nat) : Prop :=
  (forall i n, exists o, cb i n = Some o) /\ forall i j n m o, cb i n = Some o -> cb j m = Some o -> n = m.
(** The indices of the uses that need the operator. *)
Definition called (u : use) : list nat := match u with Call i _ => [i] | Shape _ _ _ => [] end.
(** The successive indices, starting from [last], without those equal to the one before. *)
Fixpoint changes (last : nat) (is : list nat) : list nat :=
  match is with
  | [] => []
  | i :: is' => if i =? last then changes last is' else i :: changes i is'
  end.
(** The object [o] is the operator of index i: the callback has returned it when called with i. *)
Definition operator_of (cb : nat -> nat -> option nat) (i o : nat) : Prop := exists n, cb i n = Some o.
(** Transposing or inverting (but not both) exchanges the input and the output; conjugation does not. *)
Definition transposes (a : assoc) : bool := match a with T | H | IT | IH => true | _ => false end.
Definition inverts (a : assoc) : bool := match a with I | IC | IT | IH => true | _ => false end.
Definition method_of_associated (a : assoc) (m : shape_method) : shape_method :=
  if xorb (transposes a) (inverts a) then exchange m else m.

(** ** MPI: collective operations over n processes, [xs] being the contributions in the order of the ranks. *)
Definition reduce_all {A} (op : A -> A -> A) (x : A) (xs : list A) : A := fold_left op xs x.
Definition gather_all {A} (xs : list A) : list A := xs.
Definition broadcast {A} (root : nat) (xs : list A) : option A := nth_error xs root.

(** Attribute caching with keyvals that are never confused: the attribute j of communicator c. *)
Record sstate := { live : nat -> bool; created : nat; ncomm : nat; att : nat -> nat -> option Z }.
Definition sexec (o : mop) (s : sstate) : sstate * mres :=
  match o with
  | CreateKeyval => ({| live := fun j => (j =? created s) || live s j; created := S (created s); ncomm := ncomm s; att := att s |}, RUnit)
  | FreeKeyval j => ({| live := fun i => negb (i =? j) && live s i; created := created s; ncomm := ncomm s; att := att s |}, RUnit)
  | Dup c => ({| live := live s; created := created s; ncomm := S (ncomm s); att := att s |}, RUnit)
  | GetAttr c j => (s, RVal (att s c j))
  | SetAttr c j v => ({| live := live s; created := created s; ncomm := ncomm s;
                         att := fun c' j' => if (c' =? c) && (j' =? j) then Some v else att s c' j' |}, RUnit)
  | DeleteAttr c j => match att s c j with
                      | None => (s, RErr ValueError)
                      | Some _ => ({| live := live s; created := created s; ncomm := ncomm s;
                                      att := fun c' j' => if (c' =? c) && (j' =? j) then None else att s c' j' |}, RUnit)
                      end
  end.
Fixpoint sexecs (os : list mop) (s : sstate) : sstate * list mres :=
  match os with
  | [] => (s, [])
  | o :: os' => let (s1, r) := sexec o s in let (s2, rs) := sexecs os' s1 in (s2, r :: rs)
  end.
Definition sstart : sstate := {| live := fun _ => false; created := 0; ncomm := 1; att := fun _ _ => None |}.
(** Only keyvals that have been created and not freed are used, on communicators that exist; a keyval is freed only when
    no communicator has a value for it. *)
Definition allowed (o : mop) (s : sstate) : Prop :=
  match o with
  | CreateKeyval => True
  | FreeKeyval j => live s j = true /\ forall c, att s c j = None
  | Dup c => c < ncomm s
  | GetAttr c j | SetAttr c j _ | DeleteAttr c j => live s j = true /\ c < ncomm s
  end.
Fixpoint all_allowed (os : list mop) (s : sstate) : Prop :=
  match os with [] => True | o :: os' => allowed o s /\ all_allowed os' (fst (sexec o s)) end.
