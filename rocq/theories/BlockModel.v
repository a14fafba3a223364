(** Block operators: core.py 3182-3395, 3397-3606, 3694-3722, 3786-3802 and 3869-3898. *)
From Verif Require Import Base SeqModel.

(** An array: its shape and its elements, as a function of the multi-index. *)
Record array (A : Type) := Arr { ashape : list nat; aval : list nat -> A }.
Arguments Arr {A}.
Arguments ashape {A}.
Arguments aval {A}.

(** ** numpy's basic indexing, as far as the slices of a partition need it *)

(** slice(None), Ellipsis, slice(lo, hi), k *)
Inductive sel := All | Ell | Rng (lo hi : nat) | At (k : nat).

Definition is_ell (s : sel) : bool := match s with Ell => true | _ => false end.

(** The ellipsis stands for as many full slices as needed; too many indices raise IndexError. *)
Definition expand (ndim : nat) (spec : list sel) : result (list sel) :=
  let k := length (filter (fun s => negb (is_ell s)) spec) in
  if Nat.ltb ndim k then Raise IndexError
  else Ok (flat_map (fun s => match s with Ell => repeat All (ndim - k) | s => [s] end) spec).

(** The shape of x[spec]: slices are clipped, an integer removes the axis. *)
Fixpoint subshape (spec : list sel) (shape : list nat) : result (list nat) :=
  match spec, shape with
  | [], _ => Ok shape
  | _, [] => Raise IndexError
  | At k :: spec', n :: shape' => if Nat.ltb k n then subshape spec' shape' else Raise IndexError
  | Rng lo hi :: spec', n :: shape' => r <- subshape spec' shape' ;; Ok (Nat.min hi n - Nat.min lo n :: r)
  | _ :: spec', n :: shape' => r <- subshape spec' shape' ;; Ok (n :: r)
  end.

(** The element of x that x[spec] has at the position [idx]. *)
Fixpoint locate (spec : list sel) (idx : list nat) : list nat :=
  match spec, idx with
  | [], _ => idx
  | At k :: spec', _ => k :: locate spec' idx
  | Rng lo _ :: spec', i :: idx' => lo + i :: locate spec' idx'
  | _ :: spec', i :: idx' => i :: locate spec' idx'
  | _ :: _, [] => []
  end.

(** The converse: the position in x[spec] of an element of x, if it is selected. *)
Fixpoint find (spec : list sel) (idx : list nat) : option (list nat) :=
  match spec, idx with
  | [], _ => Some idx
  | _, [] => None
  | At k :: spec', i :: idx' => if Nat.eqb i k then find spec' idx' else None
  | Rng lo hi :: spec', i :: idx' =>
      if Nat.leb lo i && Nat.ltb i hi then option_map (cons (i - lo)) (find spec' idx') else None
  | _ :: spec', i :: idx' => option_map (cons i) (find spec' idx')
  end.

(** x[spec] *)
Definition getitem {A} (x : array A) (spec : list sel) : result (array A) :=
  sp <- expand (length (ashape x)) spec ;;
  sh <- subshape sp (ashape x) ;;
  Ok (Arr sh (fun idx => aval x (locate sp idx))).

Definition shape_eqb (a b : list nat) : bool := if list_eq_dec Nat.eq_dec a b then true else false.

(** out[spec] after an operator has filled it with [y]; operators are not called with an output of the wrong shape
    (C15), here this raises ValueError. *)
Definition setitem {A} (out : array A) (spec : list sel) (y : array A) : result (array A) :=
  sp <- expand (length (ashape out)) spec ;;
  sh <- subshape sp (ashape out) ;;
  if shape_eqb sh (ashape y)
  then Ok (Arr (ashape out) (fun idx => match find sp idx with Some l => aval y l | None => aval out idx end))
  else Raise ValueError.

(** ** Slices of a partition *)

(** The partition axis: an existing axis (axisin, axisout) or a new one (new_axisin, new_axisout).  The constructor
    refuses both (3031-3034). *)
Inductive axis := Axis (a : Z) | NewAxis (a : Z).
Definition axis_value (ax : axis) : Z := match ax with Axis a | NewAxis a => a end.

(** l[i] = v for a Python list *)
Definition set_nth {T} (l : list T) (i : nat) (v : T) : list T :=
  firstn i l ++ match skipn i l with [] => [] | _ :: r => v :: r end.

(** BlockOperator._get_slices, 3332-3348 *)
Definition template (a : Z) : list sel :=
  if (0 <=? a)%Z then repeat All (S (Z.to_nat a)) ++ [Ell] else Ell :: repeat All (Z.to_nat (- a)).
Definition py_pos {T} (l : list T) (a : Z) : nat := if (0 <=? a)%Z then Z.to_nat a else length l - Z.to_nat (- a).

Fixpoint slices_from (ax : axis) (dest : nat) (partition : list nat) : list (list sel) :=
  match partition with
  | [] => []
  | n :: partition' =>
      let s := template (axis_value ax) in
      set_nth s (py_pos s (axis_value ax)) (match ax with NewAxis _ => At dest | Axis _ => Rng dest (dest + n) end)
      :: slices_from ax (dest + n) partition'
  end.
Definition get_slices (partition : list nat) (ax : axis) : list (list sel) := slices_from ax 0 partition.

(** dest + n with n = None raises TypeError. *)
Definition known (p : list (option nat)) : result (list nat) :=
  rmap (fun n => match n with Some n => Ok n | None => Raise TypeError end) p.

(** ** The methods direct *)

(** What block operators use of their blocks: the function computed by direct and reshapein. *)
Record blk (A : Type) := { k_fun : array A -> array A; k_reshapein : list nat -> list nat }.
Arguments k_fun {A}.
Arguments k_reshapein {A}.

(** l[a] for a Python tuple *)
Definition py_nth (l : list nat) (a : Z) : result nat :=
  let i := if (0 <=? a)%Z then a else (a + Z.of_nat (length l))%Z in
  if (i <? 0)%Z then Raise IndexError else match nth_error l (Z.to_nat i) with Some n => Ok n | None => Raise IndexError end.
Definition py_set (l : list nat) (a : Z) (n : nat) : result (list nat) :=
  let i := if (0 <=? a)%Z then a else (a + Z.of_nat (length l))%Z in
  if (i <? 0)%Z || (Z.of_nat (length l) <=? i)%Z then Raise IndexError else Ok (set_nth l (Z.to_nat i) n).

(** BlockDiagonalOperator.direct 3694-3707: the output partition.  self.axisin and self.axisout are None for a new
    axis, and a list cannot be indexed by None (TypeError). *)
Fixpoint diag_partitionout {A} (ks : list (blk A)) (pin pout : list (option nat)) (axin axout : axis) (shapein : list nat)
    : result (list nat) :=
  match ks, pin, pout with
  | k :: ks', pi :: pin', po :: pout' =>
      n <- match po, pi with
           | Some n, _ => Ok n
           | None, None => Raise ValueError
           | None, Some n =>
               match axin, axout with
               | Axis ai, Axis ao => s <- py_set shapein ai n ;; py_nth (k_reshapein k s) ao
               | _, _ => Raise TypeError
               end
           end ;;
      ns <- diag_partitionout ks' pin' pout' axin axout shapein ;;
      Ok (n :: ns)
  | _, _, _ => Ok []
  end.

(** The loop 3711-3722.  The copies made by _pool.copy_if for blocks that require aligned or contiguous arrays do not
    change the values (C06) and are left out, as is the aliasing of input and output (see below). *)
Fixpoint diag_loop {A} (ks : list (blk A)) (sins souts : list (list sel)) (x out : array A) : result (array A) :=
  match ks, sins, souts with
  | k :: ks', sin :: sins', sout :: souts' =>
      i <- getitem x sin ;;
      out <- setitem out sout (k_fun k i) ;;
      diag_loop ks' sins' souts' x out
  | _, _, _ => Ok out
  end.

Definition diag_direct {A} (ks : list (blk A)) (pin pout : list (option nat)) (axin axout : axis) (x out : array A)
    : result (array A) :=
  po <- diag_partitionout ks pin pout axin axout (ashape x) ;;
  pi <- known pin ;;
  diag_loop ks (get_slices pi axin) (get_slices po axout) x out.

(** The same loop when input and output are the same memory (the flag inplace is set when all blocks have it, 3732): the
    shapes may differ, the elements are shared.  The memory is the function from indices to elements, which is what
    happens for equal shapes and for one-dimensional arrays. *)
Fixpoint diag_loop_inplace {A} (ks : list (blk A)) (sins souts : list (list sel)) (shapein shapeout : list nat)
    (mem : list nat -> A) : result (list nat -> A) :=
  match ks, sins, souts with
  | k :: ks', sin :: sins', sout :: souts' =>
      i <- getitem (Arr shapein mem) sin ;;
      out <- setitem (Arr shapeout mem) sout (k_fun k i) ;;
      diag_loop_inplace ks' sins' souts' shapein shapeout (aval out)
  | _, _, _ => Ok mem
  end.

(** BlockColumnOperator.direct, 3786-3802.  An unknown block size is replaced by tointtuple(n) (3791), that is the tuple
    (n,), and _get_slices raises TypeError when adding it to an integer. *)
Fixpoint column_loop {A} (ks : list (blk A)) (souts : list (list sel)) (x out : array A) : result (array A) :=
  match ks, souts with
  | k :: ks', sout :: souts' => out <- setitem out sout (k_fun k x) ;; column_loop ks' souts' x out
  | _, _ => Ok out
  end.

Definition column_direct {A} (ks : list (blk A)) (pout : list (option nat)) (axout : axis) (x out : array A)
    : result (array A) :=
  po <- known pout ;;
  column_loop ks (get_slices po axout) x out.

(** BlockRowOperator.direct, 3869-3898, with the same remark (3875).  [oper] is the element-wise operation; that the
    temporary and the flag update_output make no difference is C14. *)
Definition fill {A} (out y : array A) : result (array A) :=
  if shape_eqb (ashape out) (ashape y) then Ok (Arr (ashape out) (aval y)) else Raise ValueError.
Definition update {A} (oper : A -> A -> A) (out y : array A) : result (array A) :=
  if shape_eqb (ashape out) (ashape y) then Ok (Arr (ashape out) (fun idx => oper (aval out idx) (aval y idx)))
  else Raise ValueError.

Fixpoint row_loop {A} (oper : A -> A -> A) (ks : list (blk A)) (sins : list (list sel)) (x out : array A)
    : result (array A) :=
  match ks, sins with
  | k :: ks', sin :: sins' =>
      i <- getitem x sin ;;
      out <- update oper out (k_fun k i) ;;
      row_loop oper ks' sins' x out
  | _, _ => Ok out
  end.

Definition row_direct {A} (oper : A -> A -> A) (ks : list (blk A)) (pin : list (option nat)) (axin : axis)
    (x out : array A) : result (array A) :=
  pi <- known pin ;;
  match ks, get_slices pi axin with
  | k :: ks', sin :: sins' =>
      i <- getitem x sin ;;
      out <- fill out (k_fun k i) ;;
      row_loop oper ks' sins' x out
  | _, _ => Raise IndexError
  end.

(** AdditionOperator.direct on arrays (modelled with its buffers in BufferModel). *)
Fixpoint sum_loop {A} (oper : A -> A -> A) (ks : list (blk A)) (x out : array A) : result (array A) :=
  match ks with
  | [] => Ok out
  | k :: ks' => out <- update oper out (k_fun k x) ;; sum_loop oper ks' x out
  end.
Definition sum_direct {A} (oper : A -> A -> A) (ks : list (blk A)) (x out : array A) : result (array A) :=
  match ks with
  | [] => Raise IndexError
  | k :: ks' => out <- fill out (k_fun k x) ;; sum_loop oper ks' x out
  end.

(** ** Block operators as values and their simplification rules *)

(** A block operator: its partitions and axes (None: no partition on that side, as for the input of a block column and
    the output of a block row), blocks, operation (for a block row) and its shapes when they are known. *)
Record blockop (A : Type) := B {
  q_pin : option (list (option nat)); q_pout : option (list (option nat)); q_in : option axis; q_out : option axis;
  q_ops : list (blk A); q_oper : A -> A -> A; q_shapein : option (list nat); q_shapeout : option (list nat) }.
Arguments B {A}.
Arguments q_pin {A}.
Arguments q_pout {A}.
Arguments q_in {A}.
Arguments q_out {A}.
Arguments q_ops {A}.
Arguments q_oper {A}.
Arguments q_shapein {A}.
Arguments q_shapeout {A}.

(** The three classes are told apart by their axes (BlockOperator.__init__, 2919-2946). *)
Definition block_direct {A} (q : blockop A) (x out : array A) : result (array A) :=
  match q_in q, q_out q, q_pin q, q_pout q with
  | Some axin, Some axout, Some pin, Some pout => diag_direct (q_ops q) pin pout axin axout x out
  | None, Some axout, _, Some pout => column_direct (q_ops q) pout axout x out
  | Some axin, None, Some pin, _ => row_direct (q_oper q) (q_ops q) pin axin x out
  | _, _, _, _ => Raise NotImplementedError
  end.

(** _get_partitionout 3223-3260 (and _get_partitionin 3188-3221, with reshapeout) for one implicit-shape operator: the
    size along [axto] of the other side, from the size [n] along [axfrom].  All ranks below 33 are tried with zeros for
    the other dimensions, and the answers must agree. *)
Definition infer_one (reshape : list nat -> list nat) (axfrom axto : axis) (n : nat) : option nat :=
  match axto with
  | NewAxis _ => Some 1
  | Axis ato =>
      let ndim_min := match axfrom with
                      | Axis a => if (0 <=? a)%Z then S (Z.to_nat a) else Z.to_nat (- a)
                      | NewAxis _ => 0
                      end in
      let sizes := flat_map (fun ndim =>
                     match match axfrom with Axis a => py_set (repeat 0 ndim) a n | NewAxis _ => Ok (repeat 0 ndim) end with
                     | Ok s => match py_nth (reshape s) ato with Ok m => [m] | Raise _ => [] end
                     | Raise _ => []
                     end) (seq ndim_min (33 - ndim_min)) in
      match sizes with
      | [] => None
      | m :: ms => if forallb (Nat.eqb m) ms then Some m else None
      end
  end.
Definition infer_same (reshape : list nat -> list nat) (ax : axis) (p : list (option nat)) : list (option nat) :=
  map (fun n => match ax with
                | NewAxis _ => Some 1
                | Axis _ => match n with Some n => infer_one reshape ax ax n | None => None end
                end) p.

(** BlockOperator.__init__, 2915-2919: with a single operand, the operator is a copy of it (whatever the axes). *)
Definition make {A} (q : blockop A) : blk A + blockop A :=
  match q_ops q with [b] => inl b | _ => inr q end.

(** BlockOperator(operands, pin, pout, axin, axout) with at least two operands, 2919-2946 and 3661-3693: for a block
    diagonal operator the output partition is not passed on, it is inferred again; [inf] is what _get_partitionout returns.  The operation is the
    default of the constructor (iadd), here [add]. *)
Definition construct {A} (add : A -> A -> A) (inf : list (option nat)) (pin pout : option (list (option nat)))
    (axin axout : option axis) (ops : list (blk A)) (si so : option (list nat)) : blockop A :=
  match axin, axout with
  | Some _, Some _ => B pin (Some inf) axin axout ops add si so
  | _, _ => B pin pout axin axout ops add si so
  end.

(** The rules 'T', 'H' and 'C', 3015-3049: [f] is the transposition (conjugation) of the blocks. *)
Definition rule_T {A} (add : A -> A -> A) (inf : list (option nat)) (f : blk A -> blk A) (q : blockop A) : blockop A :=
  construct add inf (q_pout q) (q_pin q) (q_out q) (q_in q) (map f (q_ops q)) (q_shapeout q) (q_shapein q).
Definition rule_C {A} (add : A -> A -> A) (inf : list (option nat)) (f : blk A -> blk A) (q : blockop A) : blockop A :=
  construct add inf (q_pin q) (q_pout q) (q_in q) (q_out q) (map f (q_ops q)) (q_shapein q) (q_shapeout q).

(** The rule 'I' of BlockDiagonalOperator, 3051-3061: [f] is the inversion of the blocks ('IC' is the same with f the
    inversion and conjugation; for 'IT' and 'IH', partitionin and the axes are not exchanged, as in rule_C). *)
Definition rule_I {A} (add : A -> A -> A) (inf : list (option nat)) (f : blk A -> blk A) (q : blockop A) : blockop A :=
  construct add inf (q_pout q) (q_pin q) (q_out q) (q_in q) (map f (q_ops q)) None None.

(** The flag linear: BlockOperator._merge_flags 3363-3367, overridden by BlockRowOperator.__init__ 3853-3855 through
    _get_attributes 3160-3180. *)
Definition flag_linear {A} (linear : blk A -> bool) (oper_is_iadd : bool) (q : blockop A) : bool :=
  match q_in q, q_out q with
  | Some _, None => oper_is_iadd
  | _, _ => forallb linear (q_ops q)
  end.

(** BlockDiagonalOperator._merge_flags, 3725-3735: symmetric when all the blocks are; then the operator is its own
    transpose (core.py 764-1011, C08). *)
Definition transpose {A} (add : A -> A -> A) (inf : list (option nat)) (f : blk A -> blk A) (symmetric : blk A -> bool)
    (q : blockop A) : blockop A :=
  match q_in q, q_out q with
  | Some _, Some _ => if forallb symmetric (q_ops q) then q else rule_T add inf f q
  | _, _ => rule_T add inf f q
  end.

(** CompositionOperator([o1, o2]) of two blocks. *)
Definition comp {A} (k1 k2 : blk A) : blk A :=
  {| k_fun := fun x => k_fun k1 (k_fun k2 x); k_reshapein := fun s => k_reshapein k1 (k_reshapein k2 s) |}.
(** AdditionOperator or MultiplicationOperator([o1, o2]) *)
Definition comm {A} (oper : A -> A -> A) (k1 k2 : blk A) : blk A :=
  {| k_fun := fun x => Arr (ashape (k_fun k1 x)) (fun idx => oper (aval (k_fun k1 x) idx) (aval (k_fun k2 x) idx));
     k_reshapein := k_reshapein k1 |}.
Fixpoint zip_with {X Y T} (f : X -> Y -> T) (l : list X) (l' : list Y) : list T :=
  match l, l' with x :: l, y :: l' => f x y :: zip_with f l l' | _, _ => [] end.

Definition none_eqb (a b : nat) := Nat.eqb a b.

(** _validate_partition_composition, 3424-3444: the axes must be the same. *)
Definition axes_match {A} (p1 p2 : blockop A) : bool :=
  match q_in p1, q_out p2 with
  | Some a1, Some a2 =>
      let v1 := if (axis_value a1 <? 0)%Z
                then match q_shapeout p2 with Some s => (axis_value a1 + Z.of_nat (length s))%Z | None => axis_value a1 end
                else axis_value a1 in
      let v2 := if (axis_value a2 <? 0)%Z
                then match q_shapein p1 with Some s => (axis_value a2 + Z.of_nat (length s))%Z | None => axis_value a2 end
                else axis_value a2 in
      (v1 =? v2)%Z && match a1, a2 with Axis _, Axis _ | NewAxis _, NewAxis _ => true | _, _ => false end
  | _, _ => false
  end.

(** _rule_blockoperator_noncommutative, 3578-3601, with _validate_partition_composition, 3445-3475.  [cls] makes an
    operator from two blocks: comp for the rule for CompositionOperator.  [pout] and [pin] are the inferred partitions
    (3453-3472).  The result is an AdditionOperator for a block row times a block column (inl).  A block row loses its
    operation.  A ValueError raised by the last two merge_none is not caught: the product fails (None). *)
Definition rule_noncommutative {A} (cls : blk A -> blk A -> blk A) (add : A -> A -> A) (inf pout pin : list (option nat))
    (p1 p2 : blockop A) : option (list (blk A) + blockop A) :=
  if axes_match p1 p2 then
    match merge_none nat none_eqb (q_pin p1) (q_pout p2) with
    | Raise _ => None
    | Ok _ =>
        let ops := zip_with cls (q_ops p1) (q_ops p2) in
        match q_pout p1, q_pin p2 with
        | None, None => Some (inl ops)
        | o1, i2 =>
            match match o1 with None => Ok None | Some o1 => merge_none nat none_eqb (Some o1) (Some pout) end,
                  match i2 with None => Ok None | Some i2 => merge_none nat none_eqb (Some i2) (Some pin) end with
            | Ok po, Ok pi => Some (inr (construct add inf pi po (q_in p2) (q_out p1) ops (q_shapein p2) (q_shapeout p1)))
            | _, _ => None
            end
        end
    end
  else None.
(** _rule_blockoperator_comp, 3603-3606 *)
Definition rule_comp {A} := @rule_noncommutative A comp.

(** BlockOperator.__mul__ 3111-3126: the element-wise product of block operators, one of them not being linear.  (For
    other classes MultiplicationOperator([self, other]) is built, see rule_same.) *)
Definition mul_nonlinear {A} (mul : A -> A -> A) := @rule_noncommutative A (comm mul).

(** _rule_operator_lcomp 3501-3525 for a separable operator that is not a block operator. *)
Definition rule_lcomp {A} (add : A -> A -> A) (inf : list (option nat)) (op : blk A) (q : blockop A) : option (blockop A) :=
  match q_pout q, q_out q with
  | Some pout, Some axout =>
      Some (construct add inf (q_pin q) (Some (infer_same (k_reshapein op) axout pout)) (q_in q) (q_out q)
              (map (comp op) (q_ops q)) (q_shapein q) None)
  | _, _ => None
  end.
(** _rule_operator_rcomp 3527-3549; [reshapeout] is the method of the separable operator. *)
Definition rule_rcomp {A} (add : A -> A -> A) (inf : list (option nat)) (reshapeout : list nat -> list nat) (q : blockop A) (op : blk A)
    : option (blockop A) :=
  match q_pin q, q_in q with
  | Some pin, Some axin =>
      Some (construct add inf (Some (infer_same reshapeout axin pin)) (q_pout q) (q_in q) (q_out q)
              (map (fun o => comp o op) (q_ops q)) None (q_shapeout q))
  | _, _ => None
  end.

(** _rule_operator_commutative, 3477-3489, for a separable operator; [oper] is the addition or the product. *)
Definition rule_commutative {A} (add oper : A -> A -> A) (inf : list (option nat)) (q : blockop A) (op : blk A) : blockop A :=
  construct add inf (q_pin q) (q_pout q) (q_in q) (q_out q) (map (fun o => comm oper o op) (q_ops q)) (q_shapein q) (q_shapeout q).

(** _validate_partition_commutative 3397-3422 and _rule_blocksameoperator_commutative 3551-3576: two block operators of
    the same class. *)
Definition opt_axis_eqb (a b : option axis) : bool :=
  match a, b with
  | None, None => true
  | Some (Axis x), Some (Axis y) | Some (NewAxis x), Some (NewAxis y) => (x =? y)%Z
  | _, _ => false
  end.
Definition rule_same {A} (add oper : A -> A -> A) (inf : list (option nat)) (p1 p2 : blockop A) : option (blockop A) :=
  if opt_axis_eqb (q_in p1) (q_in p2) && opt_axis_eqb (q_out p1) (q_out p2) then
    match merge_none nat none_eqb (q_pout p1) (q_pout p2), merge_none nat none_eqb (q_pin p1) (q_pin p2) with
    | Ok po, Ok pi =>
        Some (construct add inf pi po (q_in p1) (q_out p1) (zip_with (comm oper) (q_ops p1) (q_ops p2)) (q_shapein p1) (q_shapeout p1))
    | _, _ => None
    end
  else None.
