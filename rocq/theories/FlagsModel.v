(** Operator flags: flags.py, and core.py [_set_flags], [validate_flags], [_init_flags], [_merge_flags]. *)
From Verif Require Import Base.

(** The fields of the Flags namedtuple, flags.py 10-35. *)
Inductive flag :=
| Linear | Square | Real | Symmetric | Hermitian | Idempotent | Involutary | Orthogonal | Unitary | Separable
| AlignedInput | AlignedOutput | ContiguousInput | ContiguousOutput
| Inplace | Outplace | UpdateOutput | DestroyInput | ShapeInput | ShapeOutput.

Definition flag_eq_dec (a b : flag) : {a = b} + {a <> b}.
Proof. decide equality. Defined.
Definition flag_eqb (a b : flag) : bool := if flag_eq_dec a b then true else false.

(** A Flags tuple.  shape_input and shape_output hold strings in the code ('' by default): here only whether they are
    non-empty. *)
Definition flags := flag -> bool.

(** Flags.__new__, flags.py 39-41. *)
Definition default_flags : flags := fun k => match k with Outplace => true | _ => false end.

(** A Python dict of flags; when a key is repeated the last binding wins (dict.update). *)
Definition fdict := list (flag * bool).

Fixpoint dget (d : fdict) (k : flag) : option bool :=
  match d with
  | [] => None
  | (k', b) :: d' => match dget d' k with
                     | Some b' => Some b'
                     | None => if flag_eqb k' k then Some b else None
                     end
  end.

Definition dtrue (d : fdict) (k : flag) : bool := match dget d k with Some b => b | None => false end.

(** The loop of _set_flags, core.py 1295-1298: hermitian, orthogonal, symmetric, unitary imply linear. *)
Definition imply_linear (d : fdict) : fdict :=
  if dtrue d Hermitian || dtrue d Orthogonal || dtrue d Symmetric || dtrue d Unitary
  then d ++ [(Linear, true)] else d.

(** [self.flags._replace( **flags )], core.py 1299. *)
Definition replace (f : flags) (d : fdict) : flags :=
  fun k => match dget d k with Some b => b | None => f k end.

(** _set_flags with a dict, core.py 1294-1299. *)
Definition set_flags (f : flags) (d : fdict) : flags := replace f (imply_linear d).

(** _set_flags('name'), the form used by _init_flags. *)
Definition set_flag (k : flag) (f : flags) : flags := set_flags f [(k, true)].

(** The value of the keyword 'flags' of the constructor: None, a dict, a comma separated string, a list or tuple of
    names, or a Flags instance (core.py 1400-1411).  Names that are not flags raise ValueError in the code and cannot
    be expressed here. *)
Inductive declared :=
| DNone
| DDict (d : fdict)
| DString (l : list flag)
| DList (l : list flag)
| DFlags (f : flags).

Definition as_dict (l : list flag) : fdict := map (fun k => (k, true)) l.

(** _set_flags on the declared flags, core.py 1291-1299 and 1400-1420. *)
Definition set_declared (f : flags) (d : declared) : flags :=
  match d with
  | DNone => set_flags f []
  | DDict d => set_flags f d
  | DString l | DList l => set_flags f (as_dict l)
  | DFlags f' => f'
  end.

Definition when (b : bool) (k : flag) (f : flags) : flags := if b then set_flag k f else f.

(** The operator's direct method if it is a numpy ufunc: number of inputs and outputs, whether the output type of all
    the loops is complex (or not numeric), core.py 1079, floating or complex (1083), and whether it is np.negative. *)
Record ufunc := { nin : nat; nout : nat; all_complex : bool; all_inexact : bool; is_negative : bool }.

(** The algebraic deductions of _init_flags, core.py 1021-1059, statement by statement. *)
Definition deduce (f0 : flags) (noncomplex : bool) : flags :=
  let f := when noncomplex Real f0 in
  let f := if f Real then
             let f := when (f Symmetric) Hermitian f in
             let f := when (f Hermitian) Symmetric f in
             let f := when (f Orthogonal) Unitary f in
             when (f Unitary) Orthogonal f
           else f in
  let f := if f Orthogonal then
             let f := when (f Idempotent) Symmetric f in
             when (f Symmetric) Idempotent f
           else f in
  let f := if f Unitary then
             let f := when (f Idempotent) Hermitian f in
             when (f Hermitian) Idempotent f
           else f in
  let f := if f Involutary then
             let f := when (f Symmetric) Orthogonal f in
             let f := when (f Orthogonal) Symmetric f in
             let f := when (f Hermitian) Unitary f in
             when (f Unitary) Hermitian f
           else f in
  if f Idempotent then
    if f Orthogonal || f Unitary || f Involutary
    then set_flags f [(Orthogonal, true); (Unitary, true); (Involutary, true)]
    else f
  else f.

(** core.py 1061-1070: the flags shape_input and shape_output cannot be declared in a dict or a string. *)
Definition forbidden (d : declared) : bool :=
  match d with
  | DDict d => match dget d ShapeInput, dget d ShapeOutput with None, None => false | _, _ => true end
  | DString l => existsb (flag_eqb ShapeInput) l || existsb (flag_eqb ShapeOutput) l
  | _ => false
  end.

(** core.py 1072-1092.  The change of the dtype attribute (1082, 1085) is not modelled. *)
Definition ufunc_flags (f : flags) (u : ufunc) : result flags :=
  if negb (Nat.eqb (nin u) 1) || negb (Nat.eqb (nout u) 1) then Raise TypeError
  else
    let f := when (negb (all_complex u)) Real f in
    let f := set_flag Inplace f in
    let f := set_flag Square f in
    let f := set_flag Separable f in
    Ok (when (is_negative u) Linear f).

(** core.py 1094-1104. *)
Definition inplace_flags (f : flags) : flags :=
  if f Inplace then
    let aligned := f AlignedInput || f AlignedOutput in
    let contiguous := f ContiguousInput || f ContiguousOutput in
    set_flags f [(AlignedInput, aligned); (AlignedOutput, aligned);
                 (ContiguousInput, contiguous); (ContiguousOutput, contiguous)]
  else f.

(** _init_flags, core.py 1018-1104.  [base]: the flags of the class (decorators of flags.py); [complex] : dtype kind
    is 'c' (a missing dtype counts as non-complex, line 1022). *)
Definition init_flags (base : flags) (d : declared) (complex : bool) (direct : option ufunc) : result flags :=
  let f := deduce (set_declared base d) (negb complex) in
  if forbidden d then Raise ValueError
  else
    f <- match direct with None => Ok f | Some u => ufunc_flags f u end ;;
    Ok (inplace_flags f).

(** What the product of an operator by itself is before any rule is applied: the operator itself (core.py 434-436 and
    1496-1498) or a composition of the two. *)
Inductive square_result := SameOperator | Composition.
Definition mul_self (f : flags) : square_result := if f Idempotent then SameOperator else Composition.

(** The right-hand side of a rule on strings, rules.py 31-63. *)
Inductive rhs := RSelf | ROne.

(** The unary and composition rules that _init_rules derives from the flags, core.py 1106-1128, as a map from the
    subjects to the right-hand side; the last set_rule on the same subjects wins (core.py 631-639). *)
Inductive subject := UC | UT | UH | UI | I_self | T_self | H_self | self_self.
Definition init_rules (f : flags) (s : subject) : option rhs :=
  match s with
  | UC => if f Real then Some RSelf else None
  | UT => if f Symmetric then Some RSelf else None
  | UH => if f Hermitian then Some RSelf else None
  | UI => if f Involutary then Some RSelf else None
  | I_self => Some ROne
  | T_self => if f Orthogonal then Some ROne else None
  | H_self => if f Unitary then Some ROne else None
  | self_self => if f Involutary then Some ROne else if f Idempotent then Some RSelf else None
  end.

(** ** Flags of composite operators *)

(** CompositionOperator._merge_flags, core.py 2738-2749 (the part about algebra and storage).  The list of operands
    is not empty: max and [0] raise otherwise. *)
Definition all_flag (k : flag) (ops : list flags) : bool := forallb (fun f => f k) ops.
Definition any_flag (k : flag) (ops : list flags) : bool := existsb (fun f => f k) ops.

Definition merge_flags_composition (ops : list flags) : result fdict :=
  match ops with
  | [] => Raise IndexError
  | f0 :: _ =>
      let fl := last ops f0 in
      Ok [(Linear, all_flag Linear ops); (Real, all_flag Real ops); (Square, all_flag Square ops);
          (Separable, all_flag Separable ops); (UpdateOutput, f0 UpdateOutput);
          (AlignedInput, fl AlignedInput); (AlignedOutput, f0 AlignedOutput);
          (ContiguousInput, fl ContiguousInput); (ContiguousOutput, f0 ContiguousOutput)]
  end.

(** CommutativeCompositeOperator._merge_flags, core.py 1962-1969. *)
Definition merge_flags_commutative (ops : list flags) : fdict :=
  [(Real, all_flag Real ops); (AlignedInput, any_flag AlignedInput ops); (AlignedOutput, any_flag AlignedOutput ops);
   (ContiguousInput, any_flag ContiguousInput ops); (ContiguousOutput, any_flag ContiguousOutput ops)].

(** AdditionOperator._merge_flags, core.py 2023-2034. Line 2031 reads the flag symmetric for hermitian. *)
Definition merge_flags_addition (ops : list flags) : fdict :=
  merge_flags_commutative ops ++
  [(Linear, all_flag Linear ops); (Separable, all_flag Separable ops); (Square, any_flag Square ops);
   (Symmetric, all_flag Symmetric ops); (Hermitian, all_flag Symmetric ops)].

(** BlockDiagonalOperator._merge_flags, core.py 3363-3367 and 3725-3735. *)
Definition merge_flags_block_diagonal (ops : list flags) : fdict :=
  [(Linear, all_flag Linear ops); (Real, all_flag Real ops); (Square, all_flag Square ops);
   (Symmetric, all_flag Symmetric ops); (Hermitian, all_flag Hermitian ops); (Inplace, all_flag Inplace ops)].
