(** Independent vocabulary for C53. *)
From Verif Require Import Base Algebra SeqModel BlockModel BlockSpec DiagModel DiagRulesModel DiagSpec.

(** The size of the dimension of the data that faces the dimension [a] of an array of shape [s], if there is one. *)
Definition facing_size (b : bcast) (d s : list nat) (a : nat) : option nat :=
  match b with Rightward => nth_error d a | _ => nth_error (rev d) (length s - 1 - a) end.
(** The data is not stretched along that dimension. *)
Definition unstretched (b : bcast) (d s : list nat) (a : nat) : Prop :=
  match facing_size b d s a with Some n => n = nth a s 0 | None => True end.
(** What the block operator knows of the arrays of shape [s] on its side of the product.  If it knows their shape, then its
    constructor has made the axis non-negative (core.py 2986-3000).  Otherwise, data that is stretched along the axis, and
    arrays that have no other dimension than a new axis, are set apart: see C53_stretched_refuted and C53_new_axis_refuted. *)
Definition ready (shape : option (list nat)) (b : bcast) (d s : list nat) (ax : axis) (a : nat) : Prop :=
  match shape with
  | Some s' => s' = s /\ (0 <= axis_value ax)%Z
  | None => unstretched b d s a /\ match ax with NewAxis _ => 2 <= length s | Axis _ => True end
  end.
(** An operator that may be replicated has not been given a shape of its own: see C53_declared_refuted. *)
Definition replicable (declared shape : option (list nat)) (b : bcast) : Prop :=
  declared = None \/ b = Disabled \/ (b = Scalar /\ shape <> None).
Definition diag_ready {K : dring} (op : diag K) (shape : option (list nat)) (s : list nat) (ax : axis) (a : nat) : Prop :=
  match get_data op with
  | Some (g, b) => ready shape b (ashape (nums g)) s ax a /\ replicable (d_shape op) shape b
  | None => True
  end.
Definition const_ready {K : dring} (op : constop K) (shape : option (list nat)) (s : list nat) (ax : axis) (a : nat) : Prop :=
  let '(g, b) := cdata op in ready shape b (ashape (nums g)) s ax a /\ replicable (c_shape op) shape b.

(** The sizes that are known are right. *)
Definition sizes (p : list (option nat)) (ns : list nat) : Prop := Forall2 (fun o n => o = Some n \/ o = None) p ns.
