(** MPI communicators of operators: core.py, commin and commout.

    Operators are objects with an identity: the composites are changed in place when the communicators are propagated, and an operator may be an operand of several composites.  The memory is a list of objects, an address is a position in it.
    The simplification rules are left out (as if they were switched off); the communicators are numbers, compared by identity. *)
From Verif Require Import Base.

Definition comm := nat.
Definition ref := nat.
(** Leaf: an operator without operands.  Getter: an operator whose class overrides propagate_commin to return a new operator with the communicator received (the documented use, 370-384; OpGetComm in tests/test_mpi_comms.py).  Sum: the operators with the methods
    of CompositeOperator (sums, element-wise products, blocks).  Product: CompositionOperator. *)
Inductive kind := Leaf | Getter | Sum (l : list ref) | Product (l : list ref).
Record node := Node { n_kind : kind; n_in : option comm; n_out : option comm }.
Definition heap := list node.
Definition dead : node := Node Leaf None None.
Definition at_ (h : heap) (r : ref) : node := nth r h dead.
Fixpoint upd (h : heap) (r : ref) (f : node -> node) : heap :=
  match h, r with [], _ => [] | n :: h, 0 => f n :: h | n :: h, S r => n :: upd h r f end.

(** In for commin, Out for commout *)
Inductive dir := In_ | Out_.
Definition opp (d : dir) : dir := match d with In_ => Out_ | Out_ => In_ end.
Definition get (d : dir) (n : node) : option comm := match d with In_ => n_in n | Out_ => n_out n end.
Definition put (d : dir) (c : option comm) (n : node) : node := match d with In_ => Node (n_kind n) c (n_out n) | Out_ => Node (n_kind n) (n_in n) c end.
(** self.operands[i] = op *)
Fixpoint replace_nth (l : list ref) (i : nat) (o : ref) : list ref := match l, i with [], _ => [] | _ :: l, 0 => o :: l | x :: l, S i => x :: replace_nth l i o end.
Definition set_operand (i : nat) (o : ref) (n : node) : node :=
  match n_kind n with Sum l => Node (Sum (replace_nth l i o)) (n_in n) (n_out n) | Product l => Node (Product (replace_nth l i o)) (n_in n) (n_out n) | _ => n end.

Section Loops.
(** p: the method propagate_commin or propagate_commout of the operands; r: the composite *)
Context (p : heap -> ref -> option comm -> heap * ref) (r : ref).
(** CompositeOperator.propagate_commin and propagate_commout, the loops 1741-1742 and 1749-1750 *)
Fixpoint sum_loop (c : option comm) (i : nat) (l : list ref) (h : heap) : heap :=
  match l with
  | [] => h
  | op :: l => let (h, op') := p h op c in sum_loop c (S i) l (upd h r (set_operand i op'))
  end.
(** CompositionOperator.propagate_commin (2407-2413, in the reverse order) and propagate_commout (2420-2426) *)
Fixpoint product_loop (d : dir) (c : option comm) (l : list (nat * ref)) (h : heap) : heap :=
  match l with
  | [] => h
  | (i, op) :: l =>
      match get d (at_ h op) with
      | Some _ => product_loop d (get (opp d) (at_ h op)) l h
      | None =>
          let (h, op') := p h op c in
          let h := upd h r (set_operand i op') in
          product_loop d (match get (opp d) (at_ h op') with None => c | c' => c' end) l h
      end
  end.
End Loops.
Definition enumerate (l : list ref) : list (nat * ref) := combine (seq 0 (length l)) l.
(** The order of the operands in the loop of CompositionOperator *)
Definition order (d : dir) (l : list ref) : list (nat * ref) := match d with In_ => rev (enumerate l) | Out_ => enumerate l end.

(** propagate_commin (d = In_) and propagate_commout (d = Out_): 370-384, 1737-1752, 2403-2428.  The result is the operator returned; fuel bounds the depth. *)
Fixpoint propagate (fuel : nat) (d : dir) (h : heap) (r : ref) (c : option comm) : heap * ref :=
  match fuel with
  | 0 => (h, r)
  | S fuel =>
      match n_kind (at_ h r) with
      | Leaf => (h, r)
      | Getter => match d with In_ => (h ++ [Node Leaf c c], length h) | Out_ => (h, r) end
      | Sum l => match c with None => (h, r) | _ => (sum_loop (propagate fuel d) r c 0 l (upd h r (put d c)), r) end
      | Product l => match c with None => (h, r) | _ => (product_loop (propagate fuel d) r d c (order d l) (upd h r (put d c)), r) end
      end
  end.

(** utils/misc.py, first_is_not(l, None), 397-415 *)
Fixpoint first_known (l : list (option comm)) : option comm := match l with [] => None | None :: l => first_known l | c :: _ => c end.
(** len({id(c) for c in comms}) > 1, for the comms that are not None: 1762-1767 *)
Fixpoint known (l : list (option comm)) : list comm := match l with [] => [] | None :: l => known l | Some c :: l => c :: known l end.
Definition several (l : list (option comm)) : bool := 1 <? length (nodup Nat.eq_dec (known l)).
(** CompositionOperator._validate_comm, 2779-2785 *)
Fixpoint mismatch (h : heap) (l : list ref) : bool :=
  match l with
  | op1 :: ((op2 :: _) as l') =>
      match n_in (at_ h op1), n_out (at_ h op2) with Some c, Some c' => negb (c =? c') | _, _ => false end || mismatch h l'
  | _ => false
  end.
(** CompositeOperator.__init__, 1717-1724, with the communicators of _get_attributes (1942-1943, 2689-2690, 3169-3170) *)
Definition new_sum (h : heap) (l : list ref) : result (heap * ref) :=
  let ins := map (fun o => n_in (at_ h o)) l in
  let outs := map (fun o => n_out (at_ h o)) l in
  if several ins then Raise ValueError else if several outs then Raise ValueError else
  let r := length h in
  let h := h ++ [Node (Sum l) (first_known ins) (first_known outs)] in
  let (h, _) := propagate (S (S r)) In_ h r (n_in (at_ h r)) in
  let (h, _) := propagate (S (S r)) Out_ h r (n_out (at_ h r)) in
  Ok (h, r).
Definition new_product (h : heap) (l : list ref) : result (heap * ref) :=
  let ins := map (fun o => n_in (at_ h o)) l in
  let outs := map (fun o => n_out (at_ h o)) l in
  if mismatch h l then Raise ValueError else
  let r := length h in
  let h := h ++ [Node (Product l) (first_known (rev ins)) (first_known outs)] in
  let (h, _) := propagate (S (S r)) In_ h r (n_in (at_ h r)) in
  let (h, _) := propagate (S (S r)) Out_ h r (n_out (at_ h r)) in
  Ok (h, r).
