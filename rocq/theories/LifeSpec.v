(** What is expected of the life of operators. *)
From Verif Require Import Base FlagsModel AssocModel AssocSpec LifeModel.

Definition alive (s : state) (x : oid) : Prop := exists l, objs s x = Some (Live l).
Definition deleted (s : state) (x : oid) : Prop := exists b, objs s x = Some (Deleted b).

(** The operator reached from x by a chain of .C, .T, .H, .I, once they exist. *)
Fixpoint chain (s : state) (x : oid) (p : list attr) : option oid :=
  match p with
  | [] => Some x
  | a :: p' =>
      match objs s x with
      | Some (Live l) => match links l with Some q => chain s (pick q a) p' | None => None end
      | _ => None
      end
  end.
Definition related (s : state) (x y : oid) : Prop := exists p, chain s x p = Some y.

(** The flags that a constructor gives, for the combinations in which C, T, H and I commute (see C08). *)
Definition sound (f : flags) : Prop := exists f0 noncomplex, f = deduce f0 noncomplex /\ coherent f = true.

(** The operations of the theorems: all of them, but: the rules set by the user return new operators, a composite of a
    single operand is not given flags that differ from those of the operand, and an idempotent operator is not composed
    with itself. *)
Definition ordinary (c : cmd) : Prop :=
  match c with
  | CNew d | CComposite d _ => sound (d_flags d)
  | CAssociate _ child => forall g, sound (d_flags (child g))
  | CWrap _ given => given = None
  | CSetRule _ _ p => p = PNew
  | CSquare _ => False
  | CCopy _ | CAssign _ _ _ | CDelRule _ _ | CDelete _ => True
  end.

(** The operator that an operation is asked to change. *)
Definition target (c : cmd) : option oid :=
  match c with
  | CAssign o _ _ | CSetRule o _ _ | CDelRule o _ | CAssociate o _ | CSquare o | CDelete o => Some o
  | CNew _ | CComposite _ _ | CCopy _ | CWrap _ _ => None
  end.

(** The operations that write in the dict of rules of an existing operator. *)
Definition writes_rules (c : cmd) : Prop :=
  match c with CSetRule _ _ _ | CDelRule _ _ | CWrap _ _ | CSquare _ => True | _ => False end.

(** The bytes given to garbage_collect for the operators deleted, among the first n ones. *)
Definition freed_by (s : state) (x : oid) : nat := match objs s x with Some (Deleted b) => b | _ => 0 end.
Definition freed (s : state) : nat := list_sum (map (freed_by s) (seq 0 (next s))).
