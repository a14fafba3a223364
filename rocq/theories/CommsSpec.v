(** Consistent communicators in a tree of operators *)
From Verif Require Import Base CommsModel.

(** The operators reachable from an operator which is not shared, with their addresses *)
Inductive tree := TLeaf (a : ref) | TSum (a : ref) (l : list tree) | TProduct (a : ref) (l : list tree).
Definition addr (t : tree) : ref := match t with TLeaf a | TSum a _ | TProduct a _ => a end.
Definition composite (t : tree) : bool := match t with TLeaf _ => false | _ => true end.
(** The addresses of the composites *)
Fixpoint nodes (t : tree) : list ref := match t with TLeaf _ => [] | TSum a l | TProduct a l => a :: flat_map nodes l end.
(** The tree is in the memory *)
Fixpoint inheap (h : heap) (t : tree) : Prop :=
  addr t < length h /\
  match t with
  | TLeaf a => n_kind (at_ h a) = Leaf
  | TSum a l => n_kind (at_ h a) = Sum (map addr l) /\ (fix all l := match l with [] => True | t :: l => inheap h t /\ all l end) l
  | TProduct a l => n_kind (at_ h a) = Product (map addr l) /\ (fix all l := match l with [] => True | t :: l => inheap h t /\ all l end) l
  end.
(** No composite is an operand twice *)
Definition unshared (l : list tree) : Prop := NoDup (flat_map nodes l).

Definition commin (h : heap) (t : tree) : option comm := n_in (at_ h (addr t)).
Definition commout (h : heap) (t : tree) : option comm := n_out (at_ h (addr t)).
(** Two communicators that may be connected: equal, or one of them unknown *)
Definition compat (x y : option comm) : Prop := x = None \/ y = None \/ x = y.
Fixpoint chained {A} (R : A -> A -> Prop) (l : list A) : Prop := match l with x :: ((y :: _) as l') => R x y /\ chained R l' | _ => True end.
(** The communicator x of an operand is the communicator c of the composite; that of an operator without operands may be unknown *)
Definition inherits (t : tree) (x c : option comm) : Prop := x = c \/ composite t = false /\ x = None.
(** All operands of a sum have its communicators; the output communicator of an operand of a product is the input communicator of the next one, those of the product are those of its ends *)
Fixpoint consistent (h : heap) (t : tree) : Prop :=
  match t with
  | TLeaf _ => True
  | TSum a l =>
      Forall (fun t => inherits t (commin h t) (n_in (at_ h a)) /\ inherits t (commout h t) (n_out (at_ h a))) l /\ (fix all l := match l with [] => True | t :: l => consistent h t /\ all l end) l
  | TProduct a l =>
      chained (fun t t' => compat (commin h t) (commout h t')) l /\
      match l with t :: _ => inherits t (commout h t) (n_out (at_ h a)) | [] => True end /\
      match rev l with t :: _ => inherits t (commin h t) (n_in (at_ h a)) | [] => True end /\
      (fix all l := match l with [] => True | t :: l => consistent h t /\ all l end) l
  end.
(** The known communicators of a list are the same *)
Definition agree (l : list (option comm)) : Prop := forall c c', In (Some c) l -> In (Some c') l -> c = c'.
(** c is the first known communicator of the list *)
Definition is_first (c : option comm) (l : list (option comm)) : Prop :=
  (c = None /\ forall x, In x l -> x = None) \/ exists c' l1 l2, c = Some c' /\ l = l1 ++ Some c' :: l2 /\ forall x, In x l1 -> x = None.
