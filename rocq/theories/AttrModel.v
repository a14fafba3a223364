(** Classes and attributes of the results: /repo/src/pyoperators/core.py 346-368 (propagate_attributes), 474-500 (__call__), 1151-1172, 1734-1735, 1864-1865, 1938-1941, 2398-2401, 2681-2735, 4761-4838,
    utils/misc.py 591-596 and 711-716. *)
From Coq Require Import String.
From Verif Require Import Base.
Local Open Scope string_scope.

Section Attributes.
(** Values of attributes.  (Mutable values are not copied in the model, 361-365: they are not changed by the library.) *)
Context {V : Type}.
(** A Python dictionary: the keys are in the order of insertion *)
Definition dict := list (string * V).
Fixpoint get (d : dict) (k : string) : option V := match d with [] => None | (l, v) :: d => if String.eqb l k then Some v else get d k end.
Fixpoint put (d : dict) (k : string) (v : V) : dict := match d with [] => [(k, v)] | (l, w) :: d => if String.eqb l k then (l, v) :: d else (l, w) :: put d k v end.
Definition remove (d : dict) (k : string) : dict := filter (fun e => negb (String.eqb (fst e) k)) d.
Definition update (d e : dict) : dict := fold_left (fun d i => put d (fst i) (snd i)) e d.

(** A subclass of numpy.ndarray: its identity, the names found in the __dict__ of the classes of its __mro__, its properties (the property [k] has a setter that stores its value in the
    attribute [p] if [c_property k] is [Some p]) and the attributes set by __array_finalize__ *)
Record class := Class { c_id : nat; c_attributes : list string; c_property : string -> option string; c_finalize : dict }.
(** isclassattr, misc.py 591-596 *)
Definition isclassattr (a : string) (c : class) : bool := existsb (String.eqb a) (c_attributes c).
Definition same_class (c c' : class) : bool := Nat.eqb (c_id c) (c_id c').

(** The attributes attrin, attrout, classin and classout of an operator (a function changes the dictionary that it is given) *)
Inductive attribute := Dict (d : dict) | Function (f : dict -> dict).
Record oper := Oper { attrin : attribute; attrout : attribute; classin : option class; classout : option class }.
(** _init_inout, 1151-1172: an empty dictionary does not replace the one of the class *)
Definition init_attribute (default given : attribute) : attribute := match given with Dict [] => default | _ => given end.

(** propagate_attributes, 346-368: the class and the attributes of the output, from those of the input *)
Definition keep_attributes (c c' : class) (d : dict) : dict := filter (fun e => negb (isclassattr (fst e) c && negb (isclassattr (fst e) c'))) d.
Definition apply_attribute (a : attribute) (d : dict) : dict := match a with Dict e => update d e | Function f => f d end.
Definition propagate (o : oper) (c : class) (d : dict) : class * dict :=
  let d := match classout o with Some c' => if same_class c' c then d else keep_attributes c c' d | None => d end in
  let d := remove d "shape_global" in
  (match classout o with Some c' => c' | None => c end, apply_attribute (attrout o) d).
(** CompositionOperator.propagate_attributes, 2398-2401 *)
Definition propagate_composition (ops : list oper) (c : class) (d : dict) : class * dict :=
  fold_left (fun cd o => propagate o (fst cd) (snd cd)) (rev ops) (c, d).

(** first_is_not(.., None), for classes *)
Fixpoint first_class (l : list (option class)) : option class := match l with [] => None | Some c :: _ => Some c | None :: l => first_class l end.
(** _merge_attr, 2717-2735.  (attrin and attrout are never None.) *)
Definition is_dict (a : attribute) : bool := match a with Dict _ => true | Function _ => false end.
Definition merge_attr (l : list attribute) : attribute :=
  if forallb is_dict l then Dict (fold_left (fun d a => apply_attribute a d) l []) else Function (fun d => fold_left (fun d a => apply_attribute a d) l d).
(** CompositionOperator._get_attributes, 2681-2703: the attributes of a composition, and those of the operator that a rule puts in the place of two operands (_merge, 2705-2715) *)
Definition merge_composition (ops : list oper) : oper :=
  Oper (merge_attr (map attrin ops)) (merge_attr (map attrout (rev ops))) (first_class (map classin (rev ops))) (first_class (map classout ops)).
(** CommutativeCompositeOperator._get_attributes, 1936-1941, for sums and element-wise products; attrin and attrout are never None, so that those of the first operand are taken *)
Definition merge_commutative (o : oper) (ops : list oper) : oper :=
  Oper (attrin o) (attrout o) (first_class (map classin (o :: ops))) (first_class (map classout (o :: ops))).
(** _copy_reverse and _swap_inout, 4797-4838: the attributes of the transpose, for an operator of the class Operator, whose dictionaries are empty *)
Definition swap (o : oper) : oper := Oper (init_attribute (Dict []) (attrout o)) (init_attribute (Dict []) (attrin o)) (classout o) (classin o).
(** _copy_direct, 4761-4774: those of the conjugate *)
Definition same (o : oper) : oper := Oper (init_attribute (Dict []) (attrin o)) (init_attribute (Dict []) (attrout o)) (classin o) (classout o).
(** _generate_associated_operators, 764-1011: the transpose of a symmetric operator is itself *)
Definition transposed (symmetric : bool) (o : oper) : oper := if symmetric then o else swap o.

(** Arrays: numpy.ndarray has no dictionary *)
Record object := Object { o_class : class; o_dict : dict }.
Context (ndarray ndarraywrap : class).
(** setattr: a property stores its value somewhere else *)
Definition set_attribute (c : class) (d : dict) (k : string) (v : V) : dict := put d (match c_property c k with Some p => p | None => k end) v.
(** sorted(attr.keys()) *)
Fixpoint insert (e : string * V) (d : dict) : dict := match d with [] => [e] | e' :: d' => if String.leb (fst e) (fst e') then e :: d else e' :: insert e d' end.
Definition sort (d : dict) : dict := fold_right insert [] d.
Definition set_attributes (c : class) (old d : dict) : dict := fold_left (fun o e => set_attribute c o (fst e) (snd e)) (sort d) old.
(** The end of __call__, 474-500, from the propagation of the class and the attributes; [out] is the argument out.  The result is the array that is returned and the argument out, that is
    unchanged if it is a numpy.ndarray.  A class cannot be replaced by numpy.ndarray. *)
Definition call (prop : class -> dict -> class * dict) (x : object) (out : option object) : result (object * option object) :=
  let '(c, d) := prop (o_class x) (o_dict x) in
  let c := if same_class c ndarray && negb (match d with [] => true | _ => false end) then ndarraywrap else c in
  let new := if same_class c ndarray then Object ndarray [] else Object c (set_attributes c (update [] (c_finalize c)) d) in
  match out with
  | None => Ok (new, None)
  | Some o =>
      if same_class (o_class o) ndarray then Ok (new, out)
      else if same_class (o_class o) c then let r := Object (o_class o) (set_attributes c (o_dict o) d) in Ok (r, Some r)
      else if same_class c ndarray then Raise TypeError
      else let r := Object c (set_attributes c (update (o_dict o) (c_finalize c)) d) in Ok (r, Some r)
  end.
End Attributes.
Arguments dict : clear implicits. Arguments class : clear implicits. Arguments attribute : clear implicits. Arguments oper : clear implicits. Arguments object : clear implicits.
