(** The core operators with the rules of the library, and the construction of products, sums and element-wise products of them:
    Identity, Homothety, Diagonal, Mask, Zero, Constant, Power, Composition, Addition, Multiplication, BlockDiagonal, BlockColumn
    and BlockRow operators, together with arbitrary other operators ("atoms").  core.py 1717-2063, 2182-2490, 2894-3898,
    3951-4566; nonlinear.py 285-341; linear.py 786-835.

    Arrays are flattened and numbers are elements of a commutative ring: rounding, data types, and the leftward and rightward
    broadcasts (C21) are left out; so are shapes, communicators and the other attributes that the operators carry.  Block
    operators partition one-dimensional arrays, and their partitions are known (for the other ones see C17, C19, C20, C53).
    The exponents of PowerOperator are natural numbers.  The flags of an operator are those of its class, its data and its
    operands. *)
From Verif Require Import Base Algebra EngineModel RuleModel.

(** A numpy array without dimension, or with one. *)
Inductive arr {K : cring} := S0 (s : K) | V1 (v : list K).
Arguments arr K : clear implicits.
Inductive op {K : cring} {atom : Type} :=
| Atom (a : atom)
| Ident
| Homo (s : K)
| Zero
| Const (c : arr K)
| Diag (d : list K)
| Mask (m : list bool)     (* True: masked *)
| Power (n : nat)
| Comp (l : list op)
| Add (l : list op)
| Mul (l : list op)
(* partitionin and partitionout: BlockColumnOperator has no partitionin, BlockRowOperator no partitionout *)
| Block (pi po : option (list nat)) (l : list op).
Arguments op K atom : clear implicits.

(** What is not modelled. *)
Record oracles (K : cring) (atom : Type) := {
  k_eqb : K -> K -> bool;              (* equality of numbers *)
  k_close : K -> K -> bool;            (* numpy.allclose, by which == compares numbers, utils/misc.py 139-178 *)
  a_linear : atom -> bool;             (* the flags of the atoms *)
  a_idempotent : atom -> bool;
  a_involutary : atom -> bool;
  a_orthogonal : atom -> bool;
  a_unitary : atom -> bool;
  a_separable : atom -> bool;
  a_absorb : atom -> option (K -> atom);   (* the rule ('.', HomothetyOperator) of an atom, if it has one *)
  a_eqb : atom -> atom -> bool;        (* Operator.__eq__, 1547-1559 *)
  associated : op K atom -> symbol -> option (op K atom);   (* _T, _H, _I..., if they have been generated *)
  explicit_shapein : op K atom -> option nat;
  is_unconstrained : op K atom -> bool;   (* flags.shape_output == 'unconstrained' *)
  call_op : op K atom -> list K -> result (list K);   (* Operator.__call__ *)
  (* numpy.add of two boolean arrays is the logical or: false for the code, true for a version that adds numbers *)
  add_numbers : bool;
  (* true for the code, rules.py 231-232: a rule on HomothetyOperator is also tried on ZeroOperator *)
  zero_too : bool;
  (* false for the code; true for a version where block rows are linear if their blocks are, and where the rules on block
     operators are not applied when they are wrong: see the uses below *)
  blocks_fixed : bool
}.
Arguments k_eqb {K atom}. Arguments k_close {K atom}. Arguments a_linear {K atom}. Arguments a_idempotent {K atom}.
Arguments a_involutary {K atom}. Arguments a_orthogonal {K atom}. Arguments a_unitary {K atom}. Arguments a_separable {K atom}. Arguments a_absorb {K atom}.
Arguments a_eqb {K atom}. Arguments associated {K atom}. Arguments explicit_shapein {K atom}. Arguments is_unconstrained {K atom}.
Arguments call_op {K atom}. Arguments add_numbers {K atom}. Arguments zero_too {K atom}.
Arguments blocks_fixed {K atom}.

Section Calc.
Context {K : cring} {atom : Type} (env : oracles K atom).
Local Open Scope cr_scope.
Notation op := (op K atom).
Notation arr := (arr K).
Notation keqb := (k_eqb env).
Notation close := (k_close env).

(** ** Classes *)
Inductive cls := COperator | CBroadcasting | CDiagBase | CDiagonal | CHomothety | CIdentity | CMask | CConstant | CZero | CPower
| CComposite | CNonCommutative | CCommutative | CComposition | CAddition | CMultiplication | CBlock
| CBlockDiag | CBlockCol | CBlockRow | COther.
Definition cls_eq_dec (a b : cls) : {a = b} + {a <> b}. Proof. decide equality. Defined.
Definition cls_eqb (a b : cls) : bool := if cls_eq_dec a b then true else false.
(** __mro__ without object *)
Definition mro_list (c : cls) : list cls :=
  match c with
  | COperator => [COperator]
  | CBroadcasting => [CBroadcasting; COperator]
  | CDiagBase => [CDiagBase; CBroadcasting; COperator]
  | CDiagonal => [CDiagonal; CDiagBase; CBroadcasting; COperator]
  | CHomothety => [CHomothety; CDiagonal; CDiagBase; CBroadcasting; COperator]
  | CIdentity => [CIdentity; CHomothety; CDiagonal; CDiagBase; CBroadcasting; COperator]
  | CMask => [CMask; CDiagBase; CBroadcasting; COperator]
  | CConstant => [CConstant; CBroadcasting; COperator]
  | CZero => [CZero; CConstant; CBroadcasting; COperator]
  | CPower => [CPower; COperator]
  | CComposite => [CComposite; COperator]
  | CNonCommutative => [CNonCommutative; CComposite; COperator]
  | CCommutative => [CCommutative; CComposite; COperator]
  | CComposition => [CComposition; CNonCommutative; CComposite; COperator]
  | CAddition => [CAddition; CCommutative; CComposite; COperator]
  | CMultiplication => [CMultiplication; CCommutative; CComposite; COperator]
  | CBlock => [CBlock; CNonCommutative; CComposite; COperator]
  | CBlockDiag => [CBlockDiag; CBlock; CNonCommutative; CComposite; COperator]
  | CBlockCol => [CBlockCol; CBlock; CNonCommutative; CComposite; COperator]
  | CBlockRow => [CBlockRow; CBlock; CNonCommutative; CComposite; COperator]
  | COther => [COther; COperator]
  end.
Definition subclass (c d : cls) : bool := existsb (cls_eqb d) (mro_list c).
Definition mro (c : cls) : nat := S (length (mro_list c)).
(** BlockOperator.__init__, 2918-2938: the class follows the axes. *)
Definition block_class (pi po : option (list nat)) : cls :=
  match pi, po with _, None => CBlockRow | None, _ => CBlockCol | _, _ => CBlockDiag end.
Definition class_of (o : op) : cls :=
  match o with
  | Atom _ => COther | Ident => CIdentity | Homo _ => CHomothety | Zero => CZero | Const _ => CConstant | Diag _ => CDiagonal
  | Mask _ => CMask | Power _ => CPower | Comp _ => CComposition | Add _ => CAddition | Mul _ => CMultiplication
  | Block pi po _ => block_class pi po
  end.
(** isinstance in BinaryRule.__call__, rules.py 230-235: a rule on HomothetyOperator also applies to ZeroOperator
    ([zero_too env] is true for the code). *)
Definition isinstance (o : op) (c : cls) : bool :=
  subclass (class_of o) c || (zero_too env && cls_eqb c CHomothety && subclass (class_of o) CZero).

(** ** Flags *)
Fixpoint linear (o : op) : bool :=
  match o with
  | Atom a => a_linear env a
  | Ident | Homo _ | Zero | Diag _ | Mask _ => true
  | Const _ | Power _ | Mul _ => false
  | Comp l | Add l => forallb linear l
  (* BlockOperator._merge_flags, 3362-3367; a block row is always linear, 3853-3855 *)
  | Block _ (Some _) l => forallb linear l
  | Block _ None l => negb (blocks_fixed env) || forallb linear l
  end.
(** 'separable', 2028, 2059 and 2743; block operators and the operators of core.py do not have it. *)
Fixpoint separable (o : op) : bool :=
  match o with
  | Atom a => a_separable env a
  | Power _ => true
  | Comp l | Add l | Mul l => forallb separable l
  | _ => false
  end.
(** All the values are 1 or -1: DiagonalOperator.__init__, 4269-4272, sets involutary; orthogonal and unitary follow (1059-1067). *)
Definition signs (d : list K) : bool := forallb (fun a => keqb a 1 || keqb a (- (1))) d.
Definition involutary (o : op) : bool :=
  match o with Atom a => a_involutary env a | Ident => true | Homo s => signs [s] | Diag d => signs d | _ => false end.
Definition orthogonal (o : op) : bool := match o with Atom a => a_orthogonal env a | o => involutary o end.
Definition unitary (o : op) : bool := match o with Atom a => a_unitary env a | o => involutary o end.
Definition idempotent (o : op) : bool :=
  match o with Atom a => a_idempotent env a | Ident | Mask _ | Const _ | Zero => true | _ => false end.

(** ** Equality of operators, 1547-1559 *)
Section ListEq.
Context {A : Type} (eqb : A -> A -> bool).
Fixpoint list_eqb (l l' : list A) : bool :=
  match l, l' with
  | [], [] => true
  | a :: l, b :: l' => eqb a b && list_eqb l l'
  | _, _ => false
  end.
End ListEq.
Definition arr_eqb (a b : arr) : bool :=
  match a, b with S0 s, S0 t => close s t | V1 v, V1 w => list_eqb close v w | _, _ => false end.
Definition partition_eqb (p q : option (list nat)) : bool :=
  match p, q with None, None => true | Some p, Some q => list_eqb Nat.eqb p q | _, _ => false end.
Fixpoint op_eqb (o o' : op) : bool :=
  match o, o' with
  | Atom a, Atom b => a_eqb env a b
  | Ident, Ident | Zero, Zero => true
  | Homo s, Homo t => close s t
  | Const a, Const b => arr_eqb a b
  | Diag d, Diag e => list_eqb close d e
  | Mask m, Mask n => list_eqb Bool.eqb m n
  | Power m, Power n => m =? n
  | Comp l, Comp l' | Add l, Add l' | Mul l, Mul l' => list_eqb op_eqb l l'
  | Block pi po l, Block pi' po' l' => partition_eqb pi pi' && partition_eqb po po' && list_eqb op_eqb l l'
  | _, _ => false
  end.

(** ** Constructors that change their class according to the data *)
Definition all_same (d : list K) : bool := match d with [] => false | a :: d' => forallb (fun b => keqb b a) d' end.
Definition mkhomo (s : K) : op := if keqb s 0 then Zero else if keqb s 1 then Ident else Homo s.
(** DiagonalOperator.__init__, 4243-4274 *)
Definition mkdiag (a : arr) : op :=
  match a with
  | S0 s => mkhomo s
  | V1 d =>
      if forallb (fun b => keqb b 0) d then Zero
      else if forallb (fun b => keqb b 1) d then Ident
      else if all_same d then mkhomo (hd 0 d)
      else if forallb (fun b => keqb b 0 || keqb b 1) d then Mask (map (fun b => keqb b 0) d)
      else Diag d
  end.
(** ConstantOperator.__init__, 4438-4456 (data.flat[0] on an empty array raises IndexError) *)
Definition mkconst (a : arr) : result op :=
  match a with
  | S0 s => Ok (if keqb s 0 then Zero else Const (S0 s))
  | V1 [] => Raise IndexError
  | V1 d => Ok (if all_same d then (if keqb (hd 0 d) 0 then Zero else Const (S0 (hd 0 d))) else Const (V1 d))
  end.
(** PowerOperator.__init__, nonlinear.py 288-310 *)
Definition mkpower (n : nat) : op :=
  match n with O => Const (S0 1) | 1%nat => Ident | _ => Power n end.

(** MaskOperator.__init__, linear.py 806-823 *)
Definition mkmask (m : list bool) : op :=
  if forallb negb m then Ident else if forallb (fun b => b) m then Zero else Mask m.

(** get_data *)
Definition data (o : op) : option arr :=
  match o with
  | Ident => Some (S0 1) | Homo s => Some (S0 s) | Zero => Some (S0 0) | Const c => Some c | Diag d => Some (V1 d)
  | Mask m => Some (V1 (map (fun b : bool => if b then 0 else 1) m))
  | _ => None
  end.
(** A numpy operation on two arrays with 0 or 1 dimension, with broadcasting. *)
Definition zip (f : K -> K -> K) (v w : list K) : list K := map (fun p => f (fst p) (snd p)) (combine v w).
Definition bcast (f : K -> K -> K) (a b : arr) : result arr :=
  match a, b with
  | S0 s, S0 t => Ok (S0 (f s t))
  | S0 s, V1 w => Ok (V1 (map (f s) w))
  | V1 v, S0 t => Ok (V1 (map (fun x => f x t) v))
  | V1 v, V1 w =>
      if (length v =? length w)%nat then Ok (V1 (zip f v w))
      else match v, w with
           | [s], _ => Ok (V1 (map (f s) w))
           | _, [t] => Ok (V1 (map (fun x => f x t) v))
           | _, _ => Raise ValueError
           end
  end.

(** ** Rules *)
Inductive rname := RDot | ROne | RBlockL | RBlockR | RBlockAdd | RBlockMul | RAddDiag | RMulDiagConst | RMulDiag | RCompDiag | RIdL | RIdR | RConstL | RConstR
| RConstMul | RAddConst | RMulConst | RZeroL | RZeroR | RZeroAdd | RZeroMul | RPowComp | RPowMul | RPowDiag
| RCompComp | RCompOp | ROpComp | RCommOp | RCommComm | RAbsorb
| RSepL | RSepR | RSepAdd | RSepMul | RSameAdd | RSameMul | RBlockComp.
Notation kcall := (RuleModel.call cls rname).
Notation krule := (RuleModel.rule cls rname).
Definition sr (o : operation) (s1 s2 : subject cls) (p : rname) : kcall := Set_ o {| subjects := (s1, s2); predicate := p |}.
Notation "·" := (Str Dot).

(** The calls of set_rule and del_rule made by the constructors, in order. *)
Definition flag_calls (o : op) : list kcall :=   (* _init_rules, 1106-1128 *)
  [sr Composition (Str SI) · ROne]
  ++ (if orthogonal o then [sr Composition (Str ST) · ROne] else [])
  ++ (if unitary o then [sr Composition (Str SH) · ROne] else [])
  ++ (if idempotent o then [sr Composition · · RDot] else [])
  ++ (if involutary o then [sr Composition · · ROne] else []).
Definition broadcasting_calls : list kcall :=   (* 3987-4009 *)
  [sr Composition · (Cls CBlock) RBlockL; sr Composition (Cls CBlock) · RBlockR;
   sr Addition · (Cls CBlock) RBlockAdd; sr Multiplication · (Cls CBlock) RBlockMul].
Definition diag_calls : list kcall :=   (* 4162-4183 *)
  [sr Addition · (Cls CDiagBase) RAddDiag; sr Multiplication · (Cls CConstant) RMulDiagConst;
   sr Multiplication · (Cls CDiagBase) RMulDiag; sr Composition · (Cls CDiagBase) RCompDiag].
Definition const_calls (l r : rname) : list kcall :=   (* 4464-4477 *)
  [sr Composition · (Cls COperator) l; sr Composition (Cls COperator) · r; sr Multiplication · (Cls COperator) RConstMul;
   sr Addition · (Cls CConstant) RAddConst; sr Multiplication · (Cls CConstant) RMulConst].
Definition calls (o : op) : list kcall :=
  flag_calls o ++
  match o with
  | Atom a => match a_absorb env a with Some _ => [sr Composition · (Cls CHomothety) RAbsorb] | None => [] end
  | Homo _ | Diag _ | Mask _ => broadcasting_calls ++ diag_calls
  | Ident => broadcasting_calls ++ diag_calls ++   (* 4414-4415 *)
      [sr Composition · (Cls COperator) RIdL; sr Composition (Cls COperator) · RIdR]
  | Const _ => broadcasting_calls ++ const_calls RConstL RConstR
  | Zero => broadcasting_calls ++ const_calls RZeroL RZeroR ++   (* 4542-4547 *)
      [Del Multiplication (·, Cls CBlock); Del Multiplication (·, Cls CConstant); Del Multiplication (·, Cls COperator);
       sr Addition · (Cls COperator) RZeroAdd; sr Multiplication · (Cls COperator) RZeroMul]
  | Power _ =>   (* nonlinear.py 313-331 *)
      [sr Composition · (Cls CPower) RPowComp; sr Multiplication · (Cls CPower) RPowMul; sr Multiplication · (Cls CDiagBase) RPowDiag]
  | Comp _ =>   (* 2311-2326 *)
      [sr Composition · (Cls CComposition) RCompComp; sr Composition · (Cls COperator) RCompOp; sr Composition (Cls COperator) · ROpComp]
  | Add _ => [sr Addition · (Cls COperator) RCommOp; sr Addition · (Cls CAddition) RCommComm]   (* 1830-1835 *)
  | Mul _ => [sr Multiplication · (Cls COperator) RCommOp; sr Multiplication · (Cls CMultiplication) RCommComm]
  | Block pi po _ =>   (* 3093-3109 *)
      [sr Addition · (Cls COperator) RSepAdd; sr Multiplication · (Cls COperator) RSepMul; sr Composition · (Cls COperator) RSepR;
       sr Composition (Cls COperator) · RSepL; sr Addition · (Cls (block_class pi po)) RSameAdd;
       sr Multiplication · (Cls (block_class pi po)) RSameMul; sr Composition · (Cls CBlock) RBlockComp]
  end.
Definition op_rules (o : op) : lists cls rname := history cls_eqb subclass (calls o).

Inductive kind := KComp | KAdd | KMul.
(** The construction of a composite operator from its operands. *)
Section Predicates.
Variable build : kind -> list op -> out op.
Definition lift {A} (r : result A) : out A := Some r.
Definition some {A} (m : out A) : out (option A) := a <~ m ;; ret (Some a).
(** BroadcastingBase._rule_broadcast, 4017-4036 *)
Definition rule_broadcast (f : K -> K -> K) (mk : arr -> result op) (o1 o2 : op) : out (option op) :=
  match data o1, data o2 with
  | Some a, Some b => some (d <~ lift (bcast f a b) ;; lift (mk d))
  | _, _ => fail AttributeError
  end.
Definition addb (o1 o2 : op) : K -> K -> K :=
  match add_numbers env, o1, o2 with false, Mask _, Mask _ => fun a b => a + b - a * b | _, _, _ => radd end.
(** *** Block operators *)
Fixpoint mapo {A B} (f : A -> out B) (l : list A) : out (list B) :=
  match l with [] => ret [] | a :: l' => b <~ f a ;; r <~ mapo f l' ;; ret (b :: r) end.
(** BlockOperator(operands, partitionin, partitionout, ...), 2901-2985: a single block is returned as it is; without axes
    there is NotImplementedError (3850).  The comparisons of the partitions with the shapes of the blocks are left out. *)
Definition mkblock (pi po : option (list nat)) (l : list op) : out op :=
  match l, pi, po with
  | [o], _, _ => ret o
  | _, None, None => fail NotImplementedError
  | _, _, _ => ret (Block pi po l)
  end.
(** The slices of _get_slices, 3332-3350, for an array *)
Fixpoint pieces {A} (p : list nat) (d : list A) : list (list A) :=
  match p with [] => [] | n :: p' => firstn n d :: pieces p' (skipn n d) end.
(** BroadcastingBase._rule_block, 4038-4122: the data are sliced; an operator with scalar data is replicated, or built again
    from slices of equal numbers (if a slice is empty, this raises: C53_empty_refuted). *)
Definition sliced (o : op) (p : list nat) : list (result op) :=
  match o with
  | Diag d => map (fun v => Ok (mkdiag (V1 v))) (pieces p d)
  | Mask m => map (fun v => Ok (mkmask v)) (pieces p m)
  | Const (V1 v) => map (fun v => mkconst (V1 v)) (pieces p v)
  | _ => map (fun _ => Ok o) p
  end.
(** A block operator with the blocks build k [o1; o2], o1 and o2 running over the two lists. *)
Definition blockwise (k : kind) (pi po : option (list nat)) (l1 l2 : list op) : out (option op) :=
  some (l <~ mapo (fun p => build k [fst p; snd p]) (combine l1 l2) ;; mkblock pi po l).
Definition is_block (o : op) : bool := match o with Block _ _ _ => true | _ => false end.
Definition is_diag (o : op) : bool := subclass (class_of o) CDiagBase.
(** Constant operators may have any output size: if the rules on block operators are fixed, their products with block
    operators are left as they are. *)
Definition may_slide (o : op) : bool := negb (blocks_fixed env) || is_diag o.
(** Diagonal and separable operators are only added to block diagonal operators with equal partitions if the rules are fixed. *)
Definition may_add (o : op) (pi po : option (list nat)) : bool :=
  negb (blocks_fixed env) || subclass (class_of o) CConstant || partition_eqb pi po.
(** _rule_right_block 4131-4136, for sums and element-wise products *)
Definition rule_block_add (k : kind) (o1 o2 : op) : out (option op) :=
  match o2 with
  | Block pi (Some po) l =>
      if may_add o1 pi (Some po) then s <~ mapo lift (sliced o1 po) ;; blockwise k pi (Some po) s l else ret None
  | _ => ret None
  end.
(** _rule_operator_commutative, 3477-3489 *)
Definition rule_sep (k : kind) (o1 o2 : op) : out (option op) :=
  match o1 with
  | Block pi po l =>
      if separable o2 && (negb (blocks_fixed env) || partition_eqb pi po) then blockwise k pi po l (repeat o2 (length l)) else ret None
  | _ => fail AttributeError
  end.
(** _rule_blocksameoperator_commutative, 3551-3565; a product of block rows is not a block row: left out if the rules are fixed *)
Definition rule_same (k : kind) (o1 o2 : op) : out (option op) :=
  match o1, o2 with
  | Block pi po l, Block pi' po' l' =>
      if partition_eqb pi pi' && partition_eqb po po'
         && (negb (blocks_fixed env) || match k, po with KMul, None => false | _, _ => true end)
      then blockwise k pi po l l' else ret None
  | _, _ => fail AttributeError
  end.

Definition predicate_of (p : rname) (o1 o2 : op) : out (option op) :=
  match p with
  | RDot => ret (Some o1)
  | ROne => ret (Some Ident)
  | RBlockL =>              (* _rule_right_block, 4131-4136 *)
      match o2 with
      | Block pi (Some po) l =>
          if may_slide o1 then s <~ mapo lift (sliced o1 po) ;; blockwise KComp pi (Some po) s l else ret None
      | _ => ret None
      end
  | RBlockR =>              (* _rule_left_block, 4124-4129 *)
      match o1 with
      | Block (Some pi) po l =>
          if may_slide o2 then s <~ mapo lift (sliced o2 pi) ;; blockwise KComp (Some pi) po l s else ret None
      | _ => ret None
      end
  | RBlockAdd => rule_block_add KAdd o1 o2
  | RBlockMul => rule_block_add KMul o1 o2
  | RAddDiag => rule_broadcast (addb o1 o2) (fun d => Ok (mkdiag d)) o1 o2
  | RMulDiagConst | RCompDiag => rule_broadcast rmul (fun d => Ok (mkdiag d)) o1 o2
  | RMulDiag =>             (* _rule_multiply, 4186-4205 *)
      match data o1, data o2 with
      | Some a, Some b => some (d <~ lift (bcast rmul a b) ;; c <~ lift (mkconst d) ;; build KMul [c; mkpower 2])
      | _, _ => fail AttributeError
      end
  | RIdL => ret (Some o2)
  | RIdR => ret (Some o1)
  | RConstL => ret (Some o1)
  | RConstR =>              (* 4489-4501 *)
      if is_unconstrained env o1 then ret None
      else match o2 with
           | Const (V1 v) => some (y <~ lift (call_op env o1 v) ;; lift (mkconst (V1 y)))
           | Const (S0 s) => match explicit_shapein env o1 with
                             | Some n => some (y <~ lift (call_op env o1 (repeat s n)) ;; lift (mkconst (V1 y)))
                             | None => ret None
                             end
           | _ => ret None
           end
  | RConstMul =>            (* _rule_mul, 4503-4508 *)
      match o2, data o1 with
      | Comp _, Some a => some (build KComp [mkdiag a; o2])
      | _, Some a => if linear o2 then some (build KComp [mkdiag a; o2]) else ret None
      | _, None => fail AttributeError
      end
  | RAddConst => rule_broadcast radd mkconst o1 o2
  | RMulConst => rule_broadcast rmul mkconst o1 o2
  | RZeroL => ret (Some Zero)
  | RZeroR =>               (* 4558-4563 *)
      if linear o1 then ret (Some Zero)
      else if is_unconstrained env o1 then ret None
      else match explicit_shapein env o1 with
           | Some n => some (y <~ lift (call_op env o1 (repeat 0 n)) ;; lift (mkconst (V1 y)))
           | None => ret None
           end
  | RZeroAdd => ret (Some o2)
  | RZeroMul => ret (Some Zero)
  | RPowComp => match o1, o2 with Power m, Power n => ret (Some (mkpower (m * n))) | _, _ => fail AttributeError end
  | RPowMul => match o1, o2 with Power m, Power n => ret (Some (mkpower (m + n))) | _, _ => fail AttributeError end
  | RPowDiag =>
      match o1, data o2 with
      | Power n, Some a => some (c <~ lift (mkconst a) ;; build KMul [c; mkpower (n + 1)])
      | _, _ => fail AttributeError
      end
  | RCompComp => match o1, o2 with Comp l1, Comp l2 => some (build KComp (l1 ++ l2)) | _, _ => fail AttributeError end
  | RCompOp => match o1 with Comp l => some (build KComp (l ++ [o2])) | _ => fail AttributeError end
  | ROpComp => match o2 with Comp l => some (build KComp (o1 :: l)) | _ => fail AttributeError end
  | RCommOp =>
      match o1 with
      | Add l => some (build KAdd (l ++ [o2]))
      | Mul l => some (build KMul (l ++ [o2]))
      | _ => fail AttributeError
      end
  | RCommComm =>
      match o1, o2 with
      | Add l, Add l' => some (build KAdd (l ++ l'))
      | Mul l, Mul l' => some (build KMul (l ++ l'))
      | _, _ => fail AttributeError
      end
  | RAbsorb =>
      match o1, data o2 with
      | Atom a, Some (S0 d) => match a_absorb env a with Some f => ret (Some (Atom (f d))) | None => fail AttributeError end
      | _, _ => fail AttributeError
      end
  | RSepL =>                (* _rule_operator_lcomp, 3501-3525; separable operators keep the sizes *)
      match o2 with
      | Block pi (Some po) l =>
          if negb (is_block o1) && separable o1 then blockwise KComp pi (Some po) (repeat o1 (length l)) l else ret None
      | _ => ret None
      end
  | RSepR =>                (* _rule_operator_rcomp, 3527-3549 *)
      match o1 with
      | Block (Some pi) po l => if separable o2 then blockwise KComp (Some pi) po l (repeat o2 (length l)) else ret None
      | _ => ret None
      end
  | RSepAdd => rule_sep KAdd o1 o2
  | RSepMul => rule_sep KMul o1 o2
  | RSameAdd => rule_same KAdd o1 o2
  | RSameMul => rule_same KMul o1 o2
  | RBlockComp =>           (* _validate_partition_composition, _rule_blockoperator_noncommutative, 3424-3475 and 3578-3601 *)
      match o1, o2 with
      | Block (Some p) po l, Block pi (Some q) l' =>
          if list_eqb Nat.eqb p q then
            match pi, po with
            | None, None => some (l'' <~ mapo (fun p => build KComp [fst p; snd p]) (combine l l') ;; build KAdd l'')
            | _, _ => blockwise KComp pi po l l'
            end
          else ret None
      | _, _ => ret None
      end
  end.

(** BinaryRule.__call__, rules.py 226-254 *)
Definition run_rule (r : krule) (o1 o2 : op) : out (option op) :=
  let right := reference cls_eqb r in
  let ref := if right then o2 else o1 in
  let oth := if right then o1 else o2 in
  let applies :=
    match other cls_eqb r with
    | Cls c => isinstance oth c
    | Str Dot => op_eqb oth ref
    | Str s => match associated env ref s with Some p => op_eqb oth p | None => false end
    end in
  if applies then match predicate r with RDot => ret (Some ref) | p => predicate_of p o1 o2 end
  else ret None.
Definition run_rule_comp (r : krule) (o1 o2 : op) : out (option (news op)) :=
  n <~ run_rule r o1 o2 ;; ret (option_map One n).
Definition pair_rules (o1 o2 : op) : list (EngineModel.rule op) :=
  map run_rule_comp (rules_for_pair cls_eqb mro (mro (class_of o1)) (mro (class_of o2)) (op_rules o1) (op_rules o2)).
Definition add_rules_of (o : op) : list (op -> op -> out (option op)) := map run_rule (add_rules (op_rules o)).
Definition mul_rules_of (o : op) : list (op -> op -> out (option op)) := map run_rule (mul_rules (op_rules o)).
(** The rules whose subjects are ('.', HomothetyOperator), and (HomothetyOperator, '.'). *)
Definition homo_left (o : op) : list (op -> op -> out (option op)) :=
  map run_rule (filter (fun r => subjects_eqb cls_eqb (subjects r) (·, Cls CHomothety)) (left_rules (op_rules o))).
Definition homo_right (o : op) : list (op -> op -> out (option op)) :=
  map run_rule (filter (fun r => subjects_eqb cls_eqb (subjects r) (Cls CHomothety, ·)) (right_rules (op_rules o))).
End Predicates.

Definition is_ident (o : op) : bool := match o with Ident => true | _ => false end.
Definition is_homo (o : op) : bool := match o with Ident | Homo _ => true | _ => false end.
Definition is_zero_data (o : op) : bool := match o with Homo s => keqb s 0 | _ => false end.
Definition scalar_of (o : op) : option K := match o with Homo s => Some s | _ => None end.
(** The number of turns of the loops over n operands. *)
Definition turns (n : nat) : nat := (n + 1) * (n + 1) + 1.

(** CompositionOperator(operands), AdditionOperator(operands), MultiplicationOperator(operands): 1823-1837, 2290-2296, 2428-2433.
    An empty list of operands raises in the search of its attributes. *)
Fixpoint build (fuel : nat) (k : kind) (ops : list op) : out op :=
  match fuel with
  | O => None
  | S fuel =>
      match ops with
      | [] => fail ValueError
      | _ =>
          match k with
          | KComp =>
              ops1 <~ homothety_stage keqb linear is_ident scalar_of Ident mkhomo (homo_left (build fuel)) (homo_right (build fuel)) ops ;;
              ops2 <~ comp_rules (pair_rules (build fuel)) (turns (length ops1)) ops1 ;;
              ret (match ops2 with [o] => o | _ => Comp ops2 end)
          | KAdd =>
              ops1 <~ comm_rules (add_rules_of (build fuel)) is_homo is_zero_data (turns (length ops)) ops ;;
              ret (match ops1 with [o] => o | _ => Add ops1 end)
          | KMul =>
              ops1 <~ comm_rules (mul_rules_of (build fuel)) is_homo is_zero_data (turns (length ops)) ops ;;
              ret (match ops1 with [o] => o | _ => Mul ops1 end)
          end
      end
  end.
End Calc.
