(** The life of operator objects: creation, [copy], the associated operators, [set_rule] and [del_rule], [_reset],
    [delete] and the garbage counter (core.py, memory.py). *)
From Verif Require Import Base FlagsModel AssocModel.

(** An operator object is named by a number: two names are equal iff Python's [is] holds. *)
Definition oid := nat.

(** What an attribute of an operator holds: a plain value, or a method bound to an operator. *)
Inductive value := Plain (v : Z) | Bound (func : nat) (self : oid).

(** The attributes _C, _T, _H, _I once they are set. *)
Record quad := { qC : oid; qT : oid; qH : oid; qI : oid }.
Definition pick (q : quad) (a : attr) : oid := match a with AC => qC q | AT => qT q | AH => qH q | AI => qI q end.

(** The __dict__ of an operator.  [rules] is the name of the dict of its rules: dicts are objects and may be shared.
    [links] is None while _C, _T, _H, _I are None.  [size]: the memory footprint of an operator that is not a composite.
    [operands]: the operands of a composite, [] for the others.  [attrs]: all the other attributes, among which the class
    and the name. *)
Record live := {
  flags_of : flags; has : assoc -> bool; size : nat; rules : nat; links : option quad;
  operands : list oid; attrs : nat -> option value }.

(** A deleted operator (core.py 1667-1671) has no attribute.  The number is not in the program: it is the footprint that was
    given to garbage_collect when the operator was deleted. *)
Inductive obj := Deleted (freed : nat) | Live (l : live).

(** The predicate of a unary rule: '.', or a function that returns a new operator (rules.py 138-199). *)
Inductive pred := PDot | PNew.
Definition ruledict := assoc -> option pred.

(** The interpreter's state: the operators, the dicts of rules (only their unary rules are represented), the counter of
    memory.py and, for the record, the values of the counter at the collections. *)
Record state := {
  objs : oid -> option obj; next : nat;
  dicts : nat -> ruledict; nextdict : nat;
  counter : nat; collected : list nat }.
Definition start : state :=
  {| objs := fun _ => None; next := 0; dicts := fun _ _ => None; nextdict := 0; counter := 0; collected := [] |}.

Definition upd {A} (m : nat -> A) (k : nat) (v : A) : nat -> A := fun x => if (x =? k)%nat then v else m x.
Definition put (x : oid) (o : obj) (s : state) : state :=
  {| objs := upd (objs s) x (Some o); next := next s; dicts := dicts s; nextdict := nextdict s;
     counter := counter s; collected := collected s |}.
Definition put_dict (d : nat) (t : ruledict) (s : state) : state :=
  {| objs := objs s; next := next s; dicts := upd (dicts s) d t; nextdict := nextdict s;
     counter := counter s; collected := collected s |}.

(** ** Creation *)

(** What the constructor of an operator decides: its flags, the methods it has, its footprint and its other attributes
    (methods may be bound to the new operator, hence the argument). *)
Record desc := { d_flags : flags; d_has : assoc -> bool; d_size : nat; d_attrs : oid -> nat -> option value }.

(** The unary rules of _init_rules, core.py 1106-1117, written in an existing dict. *)
Definition flag_rule (g : assoc) (f : flags) : bool :=
  match g with aC => f Real | aT => f Symmetric | aH => f Hermitian | aI => f Involutary | _ => false end.
Definition init_rules (f : flags) (t : ruledict) : ruledict := fun g => if flag_rule g f then Some PDot else t g.

(** Operator.__init__, core.py 147-229, and CompositeOperator.__init__, core.py 1715-1724: the new operator has a new dict
    of rules (1108-1109: the class attribute [rules] is None). *)
Definition create (d : desc) (ops : list oid) (s : state) : state :=
  {| objs := upd (objs s) (next s) (Some (Live
       {| flags_of := d_flags d; has := d_has d; size := d_size d; rules := nextdict s; links := None;
          operands := ops; attrs := d_attrs d (next s) |}));
     next := S (next s);
     dicts := upd (dicts s) (nextdict s) (init_rules (d_flags d) (fun _ => None)); nextdict := S (nextdict s);
     counter := counter s; collected := collected s |}.

(** ** copy, core.py 738-755 *)

(** A method bound to the operator is bound to the copy; everything else is the same object. *)
Definition rebind (o x : oid) (v : value) : value :=
  match v with Bound f self => if (self =? o)%nat then Bound f x else v | Plain _ => v end.
(** The attributes _C, _T, _H, _I are not copied; the dict of the rules is not copied but shared. *)
Definition copied (o x : oid) (l : live) : live :=
  {| flags_of := flags_of l; has := has l; size := size l; rules := rules l; links := None; operands := operands l;
     attrs := fun k => match attrs l k with Some v => Some (rebind o x v) | None => None end |}.
Definition alloc (b : obj) (s : state) : state :=
  {| objs := upd (objs s) (next s) (Some b); next := S (next s); dicts := dicts s; nextdict := nextdict s;
     counter := counter s; collected := collected s |}.
(** The copy of a deleted operator is a deleted operator: its class is copied. *)
Definition copy (o : oid) (s : state) : result state :=
  match objs s o with
  | Some (Live l) => Ok (alloc (Live (copied o (next s) l)) s)
  | Some (Deleted _) => Ok (alloc (Deleted 0) s)
  | None => Raise (OtherError 0)
  end.

(** ** A composite made of a single operand *)

(** [AdditionOperator([o], ...)] and the like, core.py 1826-1829, 2290-2293, 2913-2916: the new operator is a copy of the
    operand on which _reset (1272-1287) runs __init__ again, with the flags of the operand or those of the keyword [flags]
    ([given]).  As [rules] is not one of OPERATOR_ATTRIBUTES (78-95), the dict of rules of the copy, which is that of the
    operand, is kept and _init_rules (1106-1117) writes in it.  The other attributes are kept. *)
Definition reflag (f : flags) (l : live) : live :=
  {| flags_of := f; has := has l; size := size l; rules := rules l; links := None; operands := operands l;
     attrs := attrs l |}.
Definition wrap (o : oid) (given : option flags) (s : state) : result state :=
  match objs s o with
  | Some (Live l) =>
      let f := match given with Some f => f | None => flags_of l end in
      Ok (put_dict (rules l) (init_rules f (dicts s (rules l))) (alloc (Live (reflag f (copied o (next s) l))) s))
  | _ => Raise AttributeError
  end.

(** ** Attributes and rules *)

(** [o.k = v]; not modelled for the deleted operators. *)
Definition assign (o : oid) (k : nat) (v : value) (s : state) : result state :=
  match objs s o with
  | Some (Live l) =>
      Ok (put o (Live {| flags_of := flags_of l; has := has l; size := size l; rules := rules l; links := links l;
                         operands := operands l; attrs := upd (attrs l) k (Some v) |}) s)
  | _ => Raise AttributeError
  end.

(** Operator.set_rule, core.py 578-667, for the unary subjects: a rule of the same subject is replaced. *)
Definition set_rule (o : oid) (g : assoc) (p : pred) (s : state) : result state :=
  match objs s o with
  | Some (Live l) =>
      Ok (put_dict (rules l) (fun h => if assoc_eq_dec h g then Some p else dicts s (rules l) h) s)
  | _ => Raise TypeError
  end.

(** Operator.del_rule, core.py 669-708, for the unary subjects. *)
Definition del_rule (o : oid) (g : assoc) (s : state) : result state :=
  match objs s o with
  | Some (Live l) =>
      match dicts s (rules l) g with
      | Some _ => Ok (put_dict (rules l) (fun h => if assoc_eq_dec h g then None else dicts s (rules l) h) s)
      | None => Raise ValueError
      end
  | _ => Raise TypeError
  end.

(** ** The associated operators *)

Definition node_of (t : table) (g : assoc) : node :=
  match g with
  | aC => nC t | aT => nT t | aH => nH t | aI => nI t | aIC => nIC t | aIT => nIT t | aIH => nIH t
  end.
(** A rule whose predicate is '.' returns the operator itself (rules.py 190-191, 86-87). *)
Definition resolve_node (d : ruledict) (n : node) : node :=
  match n with
  | New _ (SRule r) => match d r with Some PDot => Self | _ => n end
  | _ => n
  end.
Definition resolve (d : ruledict) (t : table) : table :=
  {| nC := resolve_node d (nC t); nT := resolve_node d (nT t); nH := resolve_node d (nH t); nI := resolve_node d (nI t);
     nIC := resolve_node d (nIC t); nIT := resolve_node d (nIT t); nIH := resolve_node d (nIH t) |}.

(** The names of the operators created: one name is put aside for each of the seven slots. *)
Definition slot_number (g : assoc) : nat :=
  match g with aC => 0 | aT => 1 | aH => 2 | aI => 3 | aIC => 4 | aIT => 5 | aIH => 6 end.
Definition slot_at (n : nat) : option assoc :=
  match n with
  | 0 => Some aC | 1 => Some aT | 2 => Some aH | 3 => Some aI | 4 => Some aIC | 5 => Some aIT | 6 => Some aIH
  | _ => None
  end%nat.
Definition name (o base : oid) (n : node) : oid :=
  match n with Self => o | New g _ => (base + slot_number g)%nat end.
Definition quad_at (o base : oid) (t : table) (n : node) : option quad :=
  match link t n with
  | Some p => Some {| qC := name o base (pC p); qT := name o base (pT p);
                      qH := name o base (pH p); qI := name o base (pI p) |}
  | None => None
  end.

Definition relink (q : option quad) (l : live) : live :=
  {| flags_of := flags_of l; has := has l; size := size l; rules := rules l; links := q; operands := operands l;
     attrs := attrs l |}.

(** Reading .C, .T, .H or .I (core.py 710-736): nothing is done if the associated operators exist, otherwise
    _generate_associated_operators (764-1011, modelled in AssocModel) creates them all.  [child g] describes the operator
    created for the slot g.  What _copy_direct and _copy_reverse (4759-) write in the operators is part of [child]. *)
Definition associate (o : oid) (child : assoc -> desc) (s : state) : result state :=
  match objs s o with
  | Some (Live l) =>
      match links l with
      | Some _ => Ok s
      | None =>
          let d := dicts s (rules l) in
          let t := resolve d (generate (flags_of l) (fun g => match d g with Some _ => true | None => false end) (has l)) in
          let b := next s in
          Ok {| objs := fun x =>
                  if (x =? o)%nat then Some (Live (relink (quad_at o b t Self) l))
                  else if (x <? b)%nat then objs s x
                  else match slot_at (x - b) with
                       | Some g =>
                           match node_of t g with
                           | New h c =>
                               if assoc_eq_dec g h then
                                 Some (Live {| flags_of := d_flags (child g); has := d_has (child g);
                                               size := d_size (child g); rules := (nextdict s + slot_number g)%nat;
                                               links := quad_at o b t (New h c); operands := [];
                                               attrs := d_attrs (child g) x |})
                               else None
                           | Self => None
                           end
                       | None => None
                       end;
                next := (b + 7)%nat;
                dicts := fun x =>
                  if (x <? nextdict s)%nat then dicts s x
                  else match slot_at (x - nextdict s) with
                       | Some g => init_rules (d_flags (child g)) (fun _ => None)
                       | None => fun _ => None
                       end;
                nextdict := (nextdict s + 7)%nat;
                counter := counter s; collected := collected s |}
      end
  | _ => Raise AttributeError
  end.

(** ** The idempotent rule *)

(** CompositionOperator([..., o, o, ...]) for an idempotent operator o, core.py 2252: the rule '.,.' -> '.' (1124-1125)
    returns o itself, and _merge (2705-2715) runs o._reset, which deletes _C, _T, _H and _I from o (1282-1284).  The other
    attributes are kept (o being square, the shapes do not change).  The composition itself is not represented. *)
Definition square (o : oid) (s : state) : result state :=
  match objs s o with
  | Some (Live l) =>
      if flags_of l Idempotent
      then Ok (put_dict (rules l) (init_rules (flags_of l) (dicts s (rules l))) (put o (Live (relink None l)) s))
      else Ok s
  | _ => Raise AttributeError
  end.

(** ** delete *)

(** memory.py 347-354. *)
Definition garbage_collect (threshold nbytes : nat) (s : state) : state :=
  let c := (counter s + nbytes)%nat in
  {| objs := objs s; next := next s; dicts := dicts s; nextdict := nextdict s;
     counter := if (threshold <=? c)%nat then 0 else c;
     collected := if (threshold <=? c)%nat then collected s ++ [c] else collected s |}.

(** Operator.nbytes (278-290) and CompositeOperator.nbytes (1728-1732): the sum over the distinct operands.  The operands of
    a composite are older than it, so that the name of the operator is enough fuel. *)
Fixpoint nbytes_fuel (fuel : nat) (s : state) (o : oid) : nat :=
  match objs s o with
  | Some (Live l) =>
      match operands l, fuel with
      | [], _ => size l
      | ops, S fuel' => list_sum (map (nbytes_fuel fuel' s) (nodup Nat.eq_dec ops))
      | _, O => O
      end
  | _ => O
  end.
Definition nbytes (s : state) (o : oid) : nat := nbytes_fuel (S o) s o.

(** The loop of core.py 272-276 for one operator.  A deleted operator is deleted again without effect: its nbytes is 0
    (the class DeletedOperator does not define it). *)
Definition kill (threshold : nat) (s : state) (o : oid) : state :=
  let b := nbytes s o in
  match objs s o with
  | Some (Live _) => garbage_collect threshold b (put o (Deleted b) s)
  | _ => garbage_collect threshold b s
  end.

(** Operator.delete, core.py 250-276.  The tuple is built before the loop.  An element of it that is None raises
    AttributeError in the loop; what was already deleted then is not represented. *)
Definition delete (threshold : nat) (o : oid) (s : state) : result state :=
  match objs s o with
  | Some (Live l) =>
      match links l with
      | None => Ok (kill threshold s o)
      | Some q =>
          match objs s (qI q) with
          | Some (Live li) =>
              match links li with
              | Some qi =>
                  Ok (fold_left (kill threshold) [o; qC q; qT q; qH q; qI q; qC qi; qT qi; qH qi] s)
              | None => Raise AttributeError
              end
          | _ => Raise AttributeError
          end
      end
  | Some (Deleted _) => Ok (kill threshold s o)
  | None => Raise (OtherError 0)
  end.

(** ** Histories *)
Inductive cmd :=
| CNew (d : desc)
| CComposite (d : desc) (ops : list oid)
| CCopy (o : oid)
| CWrap (o : oid) (given : option flags)
| CAssign (o : oid) (k : nat) (v : value)
| CSetRule (o : oid) (g : assoc) (p : pred)
| CDelRule (o : oid) (g : assoc)
| CAssociate (o : oid) (child : assoc -> desc)
| CSquare (o : oid)
| CDelete (o : oid).

Definition exec (threshold : nat) (s : state) (c : cmd) : result state :=
  match c with
  | CNew d => Ok (create d [] s)
  | CComposite d ops => Ok (create d ops s)
  | CCopy o => copy o s
  | CWrap o given => wrap o given s
  | CAssign o k v => assign o k v s
  | CSetRule o g p => set_rule o g p s
  | CDelRule o g => del_rule o g s
  | CAssociate o child => associate o child s
  | CSquare o => square o s
  | CDelete o => delete threshold o s
  end.
(** An operation that raises has no effect. *)
Definition step (threshold : nat) (s : state) (c : cmd) : state :=
  match exec threshold s c with Ok s' => s' | Raise _ => s end.
Definition run (threshold : nat) (cs : list cmd) (s : state) : state := fold_left (step threshold) cs s.
