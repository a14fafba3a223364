(** The associated operators C, T, H, I, I.C, I.T, I.H: core.py [_generate_associated_operators]. *)
From Verif Require Import Base FlagsModel.

(** The seven associated operators. *)
Inductive assoc := aC | aT | aH | aI | aIC | aIT | aIH.
Definition assoc_eq_dec (a b : assoc) : {a = b} + {a <> b}.
Proof. decide equality. Defined.

(** An operator object: the operator itself, or an operator created for the slot [g] together with where its [direct]
    method comes from: the user's rule for [r]; the method of self for [m] (conjugate, transpose, adjoint, inverse,
    inverse_conjugate, inverse_transpose, inverse_adjoint); the method [conjugate] of another operator; or no method
    at all.  At most one operator is created per slot, so that two objects are the same (Python's [is]) iff they are
    equal here.  The operator returned by a rule is assumed to be a new one. *)
Inductive node :=
| Self
| New (g : assoc) (s : source)
with source :=
| SRule (r : assoc)
| SMethod (m : assoc)
| SConjOf (n : node)
| SNone.

Record table := { nC : node; nT : node; nH : node; nI : node; nIC : node; nIT : node; nIH : node }.

Section Generate.
(** [rule g]: the operator has a rule for the unary subject g ([rules], line 770);
    [meth g]: the corresponding method is not None (it is the class's or was given to the constructor). *)
Variables (f : flags) (rule meth : assoc -> bool).

(** core.py 773-793 *)
Definition gC : node :=
  if f Real then Self
  else if rule aC then New aC (SRule aC)
  else New aC (SMethod aC).

(** core.py 802-818; None is the value None of the variable T. *)
Definition gT0 : option node :=
  if f Symmetric then Some Self
  else if rule aT then Some (New aT (SRule aT))
  else if f Real && rule aH then Some (New aT (SRule aH))
  else if f Orthogonal && rule aI then Some (New aT (SRule aI))
  else if meth aT then Some (New aT (SMethod aT))
  else None.

(** core.py 820-838 *)
Definition gH0 : option node :=
  if f Hermitian then Some Self
  else if f Symmetric then Some gC
  else if f Real then gT0
  else if rule aH then Some (New aH (SRule aH))
  else if f Unitary && rule aI then Some (New aH (SRule aI))
  else if meth aH then Some (New aH (SMethod aH))
  else None.

(** core.py 840-858 *)
Definition gTH1 : node * option node :=
  match gT0, gH0 with
  | Some t, h => (t, h)
  | None, Some h => if f Real then (h, Some h) else (New aT (SConjOf h), Some h)
  | None, None =>
      let t := New aT SNone in
      (t, if f Real then Some t else None)
  end.

Definition gT : node := fst gTH1.

(** core.py 860-868 *)
Definition gH : node :=
  match snd gTH1 with
  | Some h => h
  | None => New aH (SConjOf gT)
  end.

(** core.py 870-892.  When the method inverse is None the new operator has no direct method. *)
Definition gI : node :=
  if f Involutary then Self
  else if f Orthogonal then gT
  else if f Unitary then gH
  else if rule aI then New aI (SRule aI)
  else New aI (if meth aI then SMethod aI else SNone).

(** core.py 900-920 *)
Definition gIC : node :=
  if f Real then gI
  else if f Orthogonal then gH
  else if f Unitary then gT
  else if f Involutary then gC
  else if rule aIC then New aIC (SRule aIC)
  else New aIC (if meth aIC then SMethod aIC else SConjOf gI).

(** core.py 922-942 *)
Definition gIT0 : option node :=
  if f Orthogonal then Some Self
  else if f Symmetric then Some gI
  else if f Unitary then Some gC
  else if f Involutary then Some gT
  else if rule aIT then Some (New aIT (SRule aIT))
  else if meth aIT then Some (New aIT (SMethod aIT))
  else None.

(** core.py 944-968 *)
Definition gIH0 : option node :=
  if f Unitary then Some Self
  else if f Hermitian then Some gI
  else if f Orthogonal then Some gC
  else if f Involutary then Some gH
  else if f Symmetric then Some gIC
  else if f Real then gIT0
  else if rule aIH then Some (New aIH (SRule aIH))
  else if meth aIH then Some (New aIH (SMethod aIH))
  else None.

(** core.py 970-988 *)
Definition gITH1 : node * option node :=
  match gIT0, gIH0 with
  | Some t, h => (t, h)
  | None, Some h => if f Real then (h, Some h) else (New aIT (SConjOf h), Some h)
  | None, None =>
      let t := New aIT SNone in
      (t, if f Real then Some t else None)
  end.

Definition gIT : node := fst gITH1.

(** core.py 990-998 *)
Definition gIH : node :=
  match snd gITH1 with
  | Some h => h
  | None => New aIH (SConjOf gIT)
  end.

Definition generate : table :=
  {| nC := gC; nT := gT; nH := gH; nI := gI; nIC := gIC; nIT := gIT; nIH := gIH |}.
End Generate.

(** ** The pointers _C, _T, _H, _I of the objects, core.py 1004-1011 *)

Record pointers := { pC : node; pT : node; pH : node; pI : node }.
Definition heap := node -> option pointers.

Fixpoint node_eqb (a b : node) : bool :=
  match a, b with
  | Self, Self => true
  | New g s, New h t => (if assoc_eq_dec g h then true else false) && source_eqb s t
  | _, _ => false
  end
with source_eqb (a b : source) : bool :=
  match a, b with
  | SRule g, SRule h => if assoc_eq_dec g h then true else false
  | SMethod g, SMethod h => if assoc_eq_dec g h then true else false
  | SConjOf n, SConjOf m => node_eqb n m
  | SNone, SNone => true
  | _, _ => false
  end.

Definition write (o c t h i : node) (hp : heap) : heap :=
  fun n => if node_eqb n o then Some {| pC := c; pT := t; pH := h; pI := i |} else hp n.

(** The eight assignments, in this order (an object may appear several times: the last one stays). *)
Definition link (t : table) : heap :=
  let hp : heap := fun _ => None in
  let hp := write Self (nC t) (nT t) (nH t) (nI t) hp in
  let hp := write (nC t) Self (nH t) (nT t) (nIC t) hp in
  let hp := write (nT t) (nH t) Self (nC t) (nIT t) hp in
  let hp := write (nH t) (nT t) (nC t) Self (nIH t) hp in
  let hp := write (nI t) (nIC t) (nIT t) (nIH t) Self hp in
  let hp := write (nIC t) (nI t) (nIH t) (nIT t) (nC t) hp in
  let hp := write (nIT t) (nIH t) (nI t) (nIC t) (nT t) hp in
  write (nIH t) (nIT t) (nIC t) (nI t) (nH t) hp.

(** The attributes .C .T .H .I read by the user. *)
Inductive attr := AC | AT | AH | AI.
Definition get (hp : heap) (n : node) (a : attr) : option node :=
  match hp n with
  | None => None
  | Some p => Some (match a with AC => pC p | AT => pT p | AH => pH p | AI => pI p end)
  end.

Fixpoint follow (hp : heap) (n : node) (path : list attr) : option node :=
  match path with
  | [] => Some n
  | a :: path' => match get hp n a with None => None | Some m => follow hp m path' end
  end.
