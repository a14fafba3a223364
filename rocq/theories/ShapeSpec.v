(** Independent vocabulary for C15. *)
From Verif Require Import Base ShapeModel.

(** The operator says nothing against an input of shape [s] and an output of shape [t] together. *)
Definition linked (op : oper) (s t : shape) : Prop :=
  match kind_in op with Explicit => o_in op = Some s | Implicit => reshapeout op t = Ok (Some s) | Unconstrained => True end
  /\ match kind_out op with Explicit => o_out op = Some t | Implicit => reshapein op s = Ok (Some t) | Unconstrained => True end.
(** ... and both shapes pass its validation methods. *)
Definition admits (op : oper) (s t : shape) : Prop := o_vin op s = true /\ o_vout op t = true /\ linked op s t.

(** [shapes], from the output of the product to its input, suit all the operands. *)
Fixpoint chain (rel : oper -> shape -> shape -> Prop) (ops : list oper) (shapes : list shape) : Prop :=
  match ops, shapes with
  | [], [_] => True
  | op :: ops', t :: ((s :: _) as rest) => rel op s t /\ chain rel ops' rest
  | _, _ => False
  end.

(** An operator as the constructor leaves it: a side is implicit only if neither is explicit; the methods reshapein and
    reshapeout, when there are both, are converse to each other on valid shapes; a square operator keeps the shape. *)
Definition well_formed (op : oper) : Prop :=
  match kind_in op, kind_out op with
  | Explicit, Implicit | Implicit, Explicit => False
  | Implicit, Implicit => forall s t, o_vin op s = true -> o_vout op t = true -> (reshapein op s = Ok (Some t) <-> reshapeout op t = Ok (Some s))
  | _, _ => True
  end
  /\ (o_in op <> None -> o_rout op = None /\ forall s, o_vin op s = true <-> o_in op = Some s)
  /\ (o_out op <> None -> o_rin op = None /\ forall s, o_vout op s = true <-> o_out op = Some s)
  /\ (o_square op = true -> o_in op = o_out op /\ (forall s, o_vin op s = o_vout op s)
       /\ (o_in op = None -> kind_in op = Implicit /\ kind_out op = Implicit /\ forall s, reshapein op s = Ok (Some s) /\ reshapeout op s = Ok (Some s))).
(** The methods reshapein and reshapeout are converse to each other on all shapes (they raise an exception for invalid
    ones). *)
Definition exact (op : oper) : Prop := well_formed op
  /\ (kind_in op = Implicit -> kind_out op = Implicit -> forall s t, reshapein op s = Ok (Some t) <-> reshapeout op t = Ok (Some s)).

(** A known shape is the right one. *)
Definition agrees (known : option shape) (s : shape) : Prop := known = None \/ known = Some s.

(** The shapes obtained by applying the operands one after the other to an array of shape [s], each creating its output. *)
Fixpoint feed (ops : list oper) (s : shape) : result (list shape) :=
  match ops with
  | [] => Ok [s]
  | op :: ops' => r <- feed ops' s ;; t <- call_shape op (hd [] r) None ;; Ok (t :: r)
  end.
