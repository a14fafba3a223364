(** Distribution of diagonal, mask and constant operators over the blocks of a block operator: BroadcastingBase._rule_block,
    core.py 4038-4121, its uses 4123-4135 and 4506-4514.  The data of the operators is C-contiguous: _as_strided does not look
    at its strides (C21_as_strided_refuted). *)
From Verif Require Import Base Algebra SeqModel BlockModel DiagModel DiagRulesModel.

Section Rule.
Context {A : Type}.

(** What the rule does of the data: None is returned, each block is combined with the operator itself, or with an operator
    made of the part of the data for that block. *)
Inductive split := Nothing | Same | Parts (l : list (array A)).

(** BroadcastingBase._as_strided, 4137-4152 (its strides are those of C21_as_strided_partial) *)
Definition spread (b : bcast) (data : array A) (shape : option (list nat)) : array A :=
  match shape with
  | None => data
  | Some s =>
      Arr s (fun idx => match b with
                        | Rightward => aval data (clip (ashape data) idx)
                        | _ => aval data (rev (clip (rev (ashape data)) (rev idx)))
                        end)
  end.

(** 4050-4092: is the data replicated, or sliced, and along which axis? *)
Inductive decision := Stop | Replicate | Slice (ax : axis).
Definition is_new (ax : axis) : bool := match ax with NewAxis _ => true | Axis _ => false end.
Definition shift (ax : axis) (n : nat) : axis :=
  match ax with Axis a => Axis (a - Z.of_nat n) | NewAxis a => NewAxis (a - Z.of_nat n) end.
Definition decide (b : bcast) (ndim : nat) (shape : option (list nat)) (ax : axis) : decision :=
  let a := axis_value ax in
  let n := Z.of_nat ndim in
  match b, shape with
  | Scalar, None => Replicate
  | Scalar, Some _ | Disabled, _ => Slice ax
  | _, None =>
      if is_new ax && Nat.eqb ndim 1 && ((a =? -1)%Z && is_right b || (a =? 0)%Z && is_left b) then Replicate
      else if is_right b then if (n <? a)%Z then Replicate else if (a <? 0)%Z then Stop else Slice ax
      else if (a <? - n)%Z then Replicate else if (0 <=? a)%Z then Stop else Slice ax
  | Rightward, Some _ => if (n <? a)%Z then Replicate else Slice ax
  | Leftward, Some s =>
      if (a - Z.of_nat (length s) <? - n)%Z then Replicate else Slice (shift ax (length s))
  end.

(** 4044-4048 and 4094-4111.  [partition] and [ax] are partitionin and axisin (or new_axisin) of the block operator, or
    partitionout and axisout. *)
Definition is_unknown (n : option nat) : bool := match n with None => true | Some _ => false end.
Definition is_scalar (b : bcast) : bool := match b with Scalar => true | _ => false end.
Definition rule_block (data : array A) (b : bcast) (shape : option (list nat)) (partition : option (list (option nat)))
    (ax : option axis) : result split :=
  match partition, ax with
  | Some p, Some ax =>
      if existsb is_unknown p && negb (is_scalar b) then Ok Nothing
      else match decide b (length (ashape data)) shape ax with
           | Stop => Ok Nothing
           | Replicate => Ok Same
           | Slice ax' =>
               ns <- known p ;;
               l <- rmap (getitem (spread b data shape)) (get_slices ns ax') ;;
               Ok (Parts l)
           end
  | _, _ => Ok Nothing
  end.
End Rule.
Arguments split : clear implicits.

Section Split.
Context {K : dring}.
Definition parts_of {A T} (same : T) (mk : array A -> result T) (n : nat) (r : result (split A)) : result (option (list T)) :=
  s <- r ;;
  match s with
  | Nothing => Ok None
  | Same => Ok (Some (repeat same n))
  | Parts l => ts <- rmap mk l ;; Ok (Some ts)
  end.

(** The operators with which [n] blocks are combined.  type(self)(data[...], broadcast=b) 4103-4111: the class of an operator
    is that which its data has given it; an IdentityOperator has no argument.  A ZeroOperator is a ConstantOperator. *)
Definition split_diag (op : diag K) (n : nat) (shape : option (list nat)) (partition : option (list (option nat))) (ax : option axis)
    : result (option (list (diag K))) :=
  match d_class op with
  | Zero => Ok None
  | Identity => parts_of op (fun _ => Ok (identity_op None)) n (rule_block (scalar (A := K) r1) Scalar shape partition ax)
  | Homothety c => parts_of op (fun d => homothety_array d None) n (rule_block (scalar c) Scalar shape partition ax)
  | Mask m b => parts_of op (fun d => Ok (mask d b None)) n (rule_block m b shape partition ax)
  | Diagonal data b => parts_of op (fun d => Ok (diagonal d b)) n (rule_block data b shape partition ax)
  end.
(** For a ConstantOperator; a ZeroOperator has no argument. *)
Definition split_const (op : constop K) (n : nat) (shape : option (list nat)) (partition : option (list (option nat))) (ax : option axis)
    : result (option (list (constop K))) :=
  match c_class op with
  | CZero => parts_of op (fun _ => Ok (C CZero None)) n (rule_block (scalar (A := K) r0) Scalar shape partition ax)
  | CData data b => parts_of op (fun d => constant d b) n (rule_block data b shape partition ax)
  end.

(** A diagonal operator as the block of a block operator (what it is applied to when it raises an exception is returned: the
    theorems suppose or prove that it does not). *)
Definition blk_of (op : diag K) : blk K :=
  {| k_fun := fun x => match apply op x with Ok y => y | Raise _ => x end; k_reshapein := fun s => s |}.

(** BlockOperator(ops, op.partitionin, op.partitionout, op.axisin, ...) 4113-4121; [add] and [inf]: see [construct]. *)
Definition rebuild (add : K -> K -> K) (inf : list (option nat)) (q : blockop K) (ops : list (blk K)) : blockop K :=
  construct add inf (q_pin q) (q_pout q) (q_in q) (q_out q) ops (q_shapein q) (q_shapeout q).
Definition distribute {T} (f : T -> blk K -> blk K) (add : K -> K -> K) (inf : list (option nat)) (q : blockop K)
    (r : result (option (list T))) : result (option (blockop K)) :=
  o <- r ;;
  match o with
  | None => Ok None
  | Some ts => Ok (Some (rebuild add inf q (zip_with f ts (q_ops q))))
  end.

(** op * q: _rule_right_block with CompositionOperator, 4130-4135 *)
Definition diag_block (add : K -> K -> K) (inf : list (option nat)) (op : diag K) (q : blockop K) : result (option (blockop K)) :=
  distribute (fun d o => comp (blk_of d) o) add inf q (split_diag op (length (q_ops q)) (q_shapeout q) (q_pout q) (q_out q)).
(** q * op: _rule_left_block, 4123-4128 *)
Definition block_diag (add : K -> K -> K) (inf : list (option nat)) (q : blockop K) (op : diag K) : result (option (blockop K)) :=
  distribute (fun d o => comp o (blk_of d)) add inf q (split_diag op (length (q_ops q)) (q_shapein q) (q_pin q) (q_in q)).
(** op + q, and the element-wise product: _rule_right_block with AdditionOperator or MultiplicationOperator; [oper] is the
    operation. *)
Definition diag_with_block (oper add : K -> K -> K) (inf : list (option nat)) (op : diag K) (q : blockop K) : result (option (blockop K)) :=
  distribute (fun d o => comm oper (blk_of d) o) add inf q (split_diag op (length (q_ops q)) (q_shapeout q) (q_pout q) (q_out q)).
(** The sum or the element-wise product of a constant and a block; the constant has the shape of what the block gives. *)
Definition comm_const (oper : K -> K -> K) (c : constop K) (o : blk K) : blk K :=
  {| k_fun := fun x => let y := k_fun o x in
                       match constant_apply c (ashape y) with
                       | Ok z => Arr (ashape y) (fun idx => oper (aval z idx) (aval y idx))
                       | Raise _ => y
                       end;
     k_reshapein := k_reshapein o |}.
Definition const_with_block (oper add : K -> K -> K) (inf : list (option nat)) (op : constop K) (q : blockop K) : result (option (blockop K)) :=
  distribute (comm_const oper) add inf q (split_const op (length (q_ops q)) (q_shapeout q) (q_pout q) (q_out q)).
End Split.
