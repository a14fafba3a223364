(** What the core operators compute, and what is supposed of the operators that are not modelled. *)
From Verif Require Import Base Algebra EngineModel EngineSpec RuleModel CalcModel.

Section CalcSpec.
Context {K : cring} {atom : Type}.
Local Open Scope cr_scope.
Notation op := (op K atom).
Notation vec := (list K).
Fixpoint pow (a : K) (n : nat) : K := match n with O => 1 | S n => a * pow a n end.
(** Element-wise sum and product of two vectors with the same length. *)
Definition plus (a b y : vec) : Prop := length a = length b /\ y = zip radd a b.
Definition times (a b y : vec) : Prop := length a = length b /\ y = zip rmul a b.
Section Combined.
Context {op X : Type} (den : op -> X -> X -> Prop) (comb : X -> X -> X -> Prop).
Fixpoint combined (l : list op) (x y : X) : Prop :=
  match l with
  | [] => False
  | [o] => den o x y
  | o :: l' => exists a b, den o x a /\ combined l' x b /\ comb a b y
  end.
End Combined.

(** Block operators, given the relations of their blocks: a block diagonal operator applies each block to a piece of the input
    and concatenates the outputs, a block column applies each block to the input and concatenates the outputs, a block row
    applies each block to a piece of the input and adds the outputs.  [pi], [po]: the lengths of the pieces. *)
Notation rel := (vec -> vec -> Prop).
Fixpoint diag_rel (rs : list rel) (pi po : list nat) (x y : vec) : Prop :=
  match rs, pi, po with
  | [], [], [] => x = [] /\ y = []
  | r :: rs, n :: pi, m :: po => exists x1 x2 y1 y2, x = x1 ++ x2 /\ y = y1 ++ y2 /\ length x1 = n /\ length y1 = m /\ r x1 y1 /\ diag_rel rs pi po x2 y2
  | _, _, _ => False
  end.
Fixpoint col_rel (rs : list rel) (po : list nat) (x y : vec) : Prop :=
  match rs, po with
  | [], [] => y = []
  | r :: rs, m :: po => exists y1 y2, y = y1 ++ y2 /\ length y1 = m /\ r x y1 /\ col_rel rs po x y2
  | _, _ => False
  end.
Fixpoint row_rel (rs : list rel) (pi : list nat) (x y : vec) : Prop :=
  match rs, pi with
  | [r], [n] => length x = n /\ r x y
  | r :: rs, n :: pi => exists x1 x2 a b, x = x1 ++ x2 /\ length x1 = n /\ r x1 a /\ row_rel rs pi x2 b /\ plus a b y
  | _, _ => False
  end.
Definition block_rel (pi po : option (list nat)) (rs : list rel) (x y : vec) : Prop :=
  match pi, po with
  | Some pi, Some po => diag_rel rs pi po x y
  | None, Some po => col_rel rs po x y
  | Some pi, None => row_rel rs pi x y
  | None, None => False
  end.

(** [den o x y]: the operator accepts x and gives y.  A constant with no dimension (and zero) fills an output of any length. *)
Variable aden : atom -> vec -> vec -> Prop.
Fixpoint den (o : op) (x y : vec) : Prop :=
  match o with
  | Atom a => aden a x y
  | Ident => y = x
  | Homo s => y = map (rmul s) x
  | Zero => exists n, y = repeat 0 n
  | Const (S0 s) => exists n, y = repeat s n
  | Const (V1 v) => y = v
  | Diag d => length d = length x /\ y = zip rmul d x
  | Mask m => length m = length x /\ y = map (fun p => if fst p : bool then 0 else snd p) (combine m x)
  | Power n => y = map (fun a => pow a n) x
  | Comp l => composes den l x y
  | Add l => combined den plus l x y
  | Mul l => combined den times l x y
  | Block pi po l => block_rel pi po (map den l) x y
  end.

(** The operators that the constructors give: a homothety is not zero, the exponent of a power is not 0 or 1.  There are block
    operators among them only if [blocks] is true. *)
Fixpoint wf (blocks : bool) (o : op) : Prop :=
  match o with
  | Homo s => s <> 0
  | Power n => 2 <= n
  | Comp l | Add l | Mul l => (fix all (l : list op) : Prop := match l with [] => True | o :: l' => wf blocks o /\ all l' end) l
  | Block _ _ l => blocks = true /\ (fix all (l : list op) : Prop := match l with [] => True | o :: l' => wf blocks o /\ all l' end) l
  | _ => True
  end.
(** The operators of a calculus: there are block operators if the rules on block operators are fixed and masks are added as
    numbers. *)
Definition admissible (env : oracles K atom) (o : op) : Prop := wf (blocks_fixed env && add_numbers env) o.
(** A relation that acts on each piece of its input, and keeps the lengths. *)
Definition piecewise (r : rel) : Prop := forall x y, r x y ->
  length y = length x /\ forall x1 x2, x = x1 ++ x2 -> exists y1 y2, y = y1 ++ y2 /\ r x1 y1 /\ r x2 y2 /\ length y1 = length x1.

(** q undoes p *)
Definition cancels (p q : op) : Prop := forall x z y, den p x z -> den q z y -> y = x.

Record calculus (env : oracles K atom) : Prop := {
  (* numbers *)
  keqb_ok : forall a b, k_eqb env a b = true <-> a = b;
  close_ok : forall a b, k_close env a b = true -> a = b;
  (* the flags of the atoms *)
  linear_ok : forall a, a_linear env a = true -> homogeneous (fun k : K => map (rmul k)) (aden a);
  idempotent_ok : forall a, a_idempotent env a = true -> forall x z y, aden a x z -> aden a z y -> aden a x y;
  separable_ok : forall a, a_separable env a = true -> piecewise (aden a);
  involutary_ok : forall a, a_involutary env a = true -> cancels (Atom a) (Atom a);
  (* equal atoms do the same *)
  equal_ok : forall a b, a_eqb env a b = true -> forall x y, aden a x y <-> aden b x y;
  (* associated operators *)
  inverse_ok : forall o p, associated env o SI = Some p -> cancels o p;
  transpose_ok : forall o p, orthogonal env o = true -> associated env o ST = Some p -> cancels o p;
  adjoint_ok : forall o p, unitary env o = true -> associated env o SH = Some p -> cancels o p;
  (* scalars *)
  absorb_ok : forall a f, a_absorb env a = Some f -> forall d x y, aden a (map (rmul d) x) y -> aden (f d) x y;
  absorb_zero_ok : zero_too env = true -> forall a f, a_absorb env a = Some f -> forall n x y, aden a (repeat 0 n) y -> aden (f 0) x y;
  (* calls and shapes *)
  call_ok : forall o x y, call_op env o x = Ok y -> den o x y;
  shapein_ok : forall o n x y, explicit_shapein env o = Some n -> den o x y -> length x = n;
  constrained_ok : forall o x y y', is_unconstrained env o = false -> den o x y -> den o x y' -> y = y'
}.
(** A product, a sum or an element-wise product of operators, on the input x. *)
Definition kind_den (k : kind) (l : list op) (x y : vec) : Prop :=
  match k with KComp => composes den l x y | KAdd => combines den plus l x y | KMul => combines den times l x y end.
End CalcSpec.
