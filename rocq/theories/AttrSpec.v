(** Independent vocabulary for C44. *)
From Coq Require Import String Ascii.
From Verif Require Import Base AttrModel.

Section Spec.
Context {V : Type} (ndarray ndarraywrap : class V).
(** The same attributes with the same values *)
Definition same_dict (d e : dict V) : Prop := forall k, get d k = get e k.
Definition keys (d : dict V) : list string := map fst d.
Definition well_formed (d : dict V) : Prop := NoDup (keys d).
(** What is required from the classes, including the two of the library: an identity stands for one class, all classes derive from numpy.ndarray, and ndarraywrap has the same class attributes
    (as far as the names of attributes of arrays are concerned) *)
Record world (known : class V -> Prop) : Prop := {
  w_ids : forall c c', known c -> known c' -> c_id c = c_id c' -> c = c';
  w_known : known ndarray /\ known ndarraywrap /\ c_id ndarraywrap <> c_id ndarray;
  w_base : forall c a, known c -> isclassattr a ndarray = true -> isclassattr a c = true;
  w_wrap : forall a, isclassattr a ndarraywrap = isclassattr a ndarray }.
(** Classes without properties, and whose __array_finalize__ sets no attribute *)
Definition simple (c : class V) : Prop := (forall k, c_property c k = None) /\ c_finalize c = [].
(** A function that depends on the attributes only, and not on the order in which they have been set *)
Definition extensional (a : attribute V) : Prop :=
  match a with Dict d => well_formed d | Function f => forall d e, well_formed d -> well_formed e -> same_dict d e -> well_formed (f d) /\ same_dict (f d) (f e) end.
Definition known_class (known : class V -> Prop) (c : option (class V)) : Prop := match c with Some c => known c | None => True end.
Definition regular (known : class V -> Prop) (o : oper V) : Prop := extensional (attrout o) /\ extensional (attrin o) /\ known_class known (classout o) /\ known_class known (classin o).
(** An array: numpy.ndarray has no attribute. *)
Definition array_ok (known : class V -> Prop) (x : object V) : Prop := known (o_class x) /\ well_formed (o_dict x) /\ (o_class x = ndarray -> o_dict x = []).
(** The operators are called one after the other, the last of the list first. *)
Fixpoint one_by_one (ops : list (oper V)) (x : object V) : result (object V) :=
  match ops with
  | [] => Ok x
  | o :: ops => y <- one_by_one ops x ;; r <- call ndarray ndarraywrap (propagate o) y None ;; Ok (fst r)
  end.
(** The attributes of the result of one operator: those of attrout, and those of the input that are not replaced; shape_global is dropped, and so are the attributes that are class attributes of
    the input only. *)
Definition expected (o : oper V) (x : object V) (e : dict V) (k : string) : option V :=
  match get e k with
  | Some v => Some v
  | None =>
      if String.eqb k "shape_global" then None
      else match classout o with
      | Some c => if negb (Nat.eqb (c_id c) (c_id (o_class x))) && isclassattr k (o_class x) && negb (isclassattr k c) then None else get (o_dict x) k
      | None => get (o_dict x) k
      end
  end.
(** The same class, but for an array without attributes, that may be numpy.ndarray or ndarraywrap *)
Definition close (c c' : class V) : Prop := c = c' \/ c = ndarray /\ c' = ndarraywrap.
(** The attribute shape_global is not set. *)
Definition no_shape (a : attribute V) : Prop := match a with Dict d => get d "shape_global" = None | Function f => forall d, get d "shape_global" = None -> get (f d) "shape_global" = None end.
(** The same propagation, in both directions *)
Definition equal_attribute (a b : attribute V) : Prop := forall d, apply_attribute a d = apply_attribute b d.
Definition equal_oper (o p : oper V) : Prop := equal_attribute (attrin o) (attrin p) /\ equal_attribute (attrout o) (attrout p) /\ classin o = classin p /\ classout o = classout p.
(** Where the value of an attribute is stored *)
Definition storage (c : class V) (k : string) : string := match c_property c k with Some p => p | None => k end.
End Spec.
