(** Operators that evaluate an expression with numexpr: DiagonalNumexprOperator, linear.py 637-732, and NumexprOperator,
    nonlinear.py 639-690. *)
From Coq Require Import String Ascii.
From Verif Require Import Base Algebra BlockModel BlockSpec DiagModel DiagRulesModel DistModel.
Open Scope list_scope.

(** ** numexpr

    An expression is a Python expression; its text is modelled as a list of tokens, without comments.  Chained comparisons,
    which numexpr refuses, are read from left to right. *)
Inductive bop := Lt | Gt | Le | Ge | EqEq | Ne | BOr | BXor | BAnd | Shl | Shr | Plus | Minus | Times | Slash | Percent.
Inductive uop := Neg | Pos | Inv.
Definition level (o : bop) : nat :=
  match o with
  | Lt | Gt | Le | Ge | EqEq | Ne => 0
  | BOr => 1
  | BXor => 2
  | BAnd => 3
  | Shl | Shr => 4
  | Plus | Minus => 5
  | Times | Slash | Percent => 6
  end.
Inductive token {K : Type} := Name (s : string) | Num (c : K) | Op (o : bop) | Tilde | StarStar | LPar | RPar | Comma.
Arguments token : clear implicits.
Inductive expr {K : Type} :=
| Var (s : string) | Lit (c : K) | Bin (o : bop) (a b : expr) | Pow (a b : expr) | Un (u : uop) (a : expr) | Call (f : string) (l : list expr).
Arguments expr : clear implicits.

Section Parser.
Context {K : Type}.
Notation tok := (token K).
Notation ex := (expr K).
(** The grammar of Python's expressions; [lv] is the level of the operators that are read; 7: unary operators. *)
Fixpoint parse (fuel lv : nat) (ts : list tok) {struct fuel} : option (ex * list tok) :=
  match fuel with
  | 0 => None
  | S f =>
      if lv <? 7 then
        match parse f (S lv) ts with Some (e, ts') => chain f lv e ts' | None => None end
      else
        match ts with
        | Op Minus :: ts' => match parse f 7 ts' with Some (e, r) => Some (Un Neg e, r) | None => None end
        | Op Plus :: ts' => match parse f 7 ts' with Some (e, r) => Some (Un Pos e, r) | None => None end
        | Tilde :: ts' => match parse f 7 ts' with Some (e, r) => Some (Un Inv e, r) | None => None end
        | Name s :: LPar :: ts' => match arguments f ts' with Some (l, r) => power f (Call s l) r | None => None end
        | Name s :: ts' => power f (Var s) ts'
        | Num c :: ts' => power f (Lit c) ts'
        | LPar :: ts' => match parse f 0 ts' with Some (e, RPar :: r) => power f e r | _ => None end
        | _ => None
        end
  end
with chain (fuel lv : nat) (e : ex) (ts : list tok) {struct fuel} : option (ex * list tok) :=
  match fuel with
  | 0 => None
  | S f =>
      match ts with
      | Op o :: ts' =>
          if level o =? lv then match parse f (S lv) ts' with Some (e', r) => chain f lv (Bin o e e') r | None => None end
          else Some (e, ts)
      | _ => Some (e, ts)
      end
  end
with power (fuel : nat) (e : ex) (ts : list tok) {struct fuel} : option (ex * list tok) :=
  match fuel with
  | 0 => None
  | S f =>
      match ts with
      | StarStar :: ts' => match parse f 7 ts' with Some (e', r) => Some (Pow e e', r) | None => None end
      | _ => Some (e, ts)
      end
  end
with arguments (fuel : nat) (ts : list tok) {struct fuel} : option (list ex * list tok) :=
  match fuel with
  | 0 => None
  | S f =>
      match parse f 0 ts with
      | Some (e, RPar :: r) => Some ([e], r)
      | Some (e, Comma :: r) => match arguments f r with Some (l, r') => Some (e :: l, r') | None => None end
      | _ => None
      end
  end.
(** compile(expr, '<expr>', 'eval'); each token takes at most ten calls *)
Definition read (ts : list tok) : option ex :=
  match parse (10 * S (length ts)) 0 ts with Some (e, []) => Some e | _ => None end.
Fixpoint names (e : ex) : list string :=
  match e with
  | Var s => [s]
  | Lit _ => []
  | Bin _ a b | Pow a b => names a ++ names b
  | Un _ a => names a
  | Call _ l => flat_map names l
  end.
Fixpoint functions (e : ex) : list string :=
  match e with
  | Var _ | Lit _ => []
  | Bin _ a b | Pow a b => functions a ++ functions b
  | Un _ a => functions a
  | Call f l => f :: flat_map functions l
  end.
(** The text that DiagonalNumexprOperator.direct evaluates, linear.py 707 *)
Definition times_input (ex : list tok) : list tok := LPar :: ex ++ [RPar; Op Times; Name "input"].
(** operation_symbol, utils/misc.py 738-743, and the text that NumexprOperator.direct evaluates, nonlinear.py 677-678 *)
Inductive operation := IAdd | ISub | IMul | ITruediv.
Definition operation_symbol (o : operation) : bop :=
  match o with IAdd => Plus | ISub => Minus | IMul => Times | ITruediv => Slash end.
Definition updating (o : bop) (ex : list tok) : list tok := Name "output" :: Op o :: LPar :: ex ++ [RPar].
End Parser.

(** What numexpr computes on numbers.  All the values are in K: booleans are 0 and 1. *)
Record arith (K : cring) := { a_bin : bop -> K -> K -> K; a_un : uop -> K -> K; a_pow : K -> K -> K; a_fun : string -> option (list K -> K);
                              a_times : forall x y, a_bin Times x y = rmul x y }.
Arguments a_bin {_}. Arguments a_un {_}. Arguments a_pow {_}. Arguments a_fun {_}. Arguments a_times {_}.

Section Numexpr.
Context {K : dring} (ar : arith K).
Fixpoint value (env : string -> K) (e : expr K) : K :=
  match e with
  | Var s => env s
  | Lit c => c
  | Bin o a b => a_bin ar o (value env a) (value env b)
  | Pow a b => a_pow ar (value env a) (value env b)
  | Un u a => a_un ar u (value env a)
  | Call f l => match a_fun ar f with Some g => g (map (value env) l) | None => r0 end
  end.

(** The objects of a namespace: those that are not arrays of numbers cannot be used. *)
Inductive object := Array (a : array K) | Other.
Definition dict := list (string * object).
Fixpoint find_name {T} (s : string) (d : list (string * T)) : option T :=
  match d with [] => None | (s', v) :: d' => if String.eqb s s' then Some v else find_name s d' end.
(** numexpr.necompiler.getArguments: the local variables (of the caller, by default) come first. *)
Definition argument (locals globals : dict) (s : string) : result (string * array K) :=
  match find_name s locals with
  | Some (Array a) => Ok (s, a)
  | Some Other => Raise TypeError
  | None =>
      match find_name s globals with
      | Some (Array a) => Ok (s, a)
      | Some Other => Raise TypeError
      | None => Raise KeyError
      end
  end.
Definition arg (args : list (string * array K)) (s : string) : array K :=
  match find_name s args with Some a => a | None => scalar r0 end.
Definition compiled (locals globals : dict) (text : list (token K)) : result (expr K * list (string * array K)) :=
  match read text with
  | None => Raise (OtherError 0) (* SyntaxError *)
  | Some e =>
      if forallb (fun f => match a_fun ar f with Some _ => true | None => false end) (functions e)
      then args <- rmap (argument locals globals) (names e) ;; Ok (e, args)
      else Raise TypeError
  end.
(** numexpr.evaluate(text, local_dict, global_dict, out=...): the arguments are broadcast to the shape of out. *)
Definition evaluate_out (locals globals : dict) (text : list (token K)) (out : list nat) : result (array K) :=
  ea <- compiled locals globals text ;;
  _ <- rmap (fun sa => assign (snd sa) out) (snd ea) ;;
  Ok (Arr out (fun idx => value (fun s => stretched (arg (snd ea) s) idx) (fst ea))).
(** numexpr.evaluate(text, local_dict, global_dict) *)
Fixpoint common_shape (l : list (list nat)) : result (list nat) :=
  match l with [] => Ok [] | s :: l' => r <- common_shape l' ;; bc s r end.
Definition evaluate (locals globals : dict) (text : list (token K)) : result (array K) :=
  ea <- compiled locals globals text ;;
  s <- common_shape (map (fun sa => rev (ashape (snd sa))) (snd ea)) ;;
  Ok (Arr (rev s) (fun idx => value (fun s => stretched (arg (snd ea) s) idx) (fst ea))).

(** ** DiagonalNumexprOperator

    [heap]: the dictionaries of the program, by address; they can change between the calls. *)
Definition heap := nat -> dict.
Record nexdiag := ND { n_data : array K; n_b : bcast; n_expr : list (token K); n_var : string; n_globals : option nat;
                       n_copy : dict; n_shape : option (list nat) }.
Definition set_name (d : dict) (s : string) (o : object) : dict := (s, o) :: filter (fun p => negb (String.eqb s (fst p))) d.
(** __init__, linear.py 666-701, and BroadcastingBase.__init__, core.py 3971-3984: [b] in lower case; the type of the
    expression and the dtype are left out. *)
Definition nexpr (h : heap) (data : array K) (ex : list (token K)) (globals : option nat) (var : string) (b : option bcast) : nexdiag :=
  let b := match b with Some b => b | None => default_broadcast data end in
  {| n_data := data;
     n_b := match ashape data, b with [], Leftward | [], Rightward => Scalar | _, _ => b end;
     n_expr := ex; n_var := var; n_globals := globals;
     n_copy := set_name (match globals with None => [] | Some r => h r end) var
                        (Array (match b with Rightward => transpose data | _ => data end));
     n_shape := match b with Disabled => Some (ashape data) | _ => None end |}.
(** direct, 703-709.  [out] is the content of the output; the local variables of the method are seen by numexpr. *)
Definition nex_direct (op : nexdiag) (x out : array K) : result (array K) :=
  match n_b op with
  | Rightward =>
      r <- evaluate_out [("self", Other); ("input", Array (transpose x)); ("output", Array (transpose out))]%string (n_copy op)
                        (times_input (n_expr op)) (rev (ashape x)) ;;
      Ok (transpose r)
  | _ => evaluate_out [("self", Other); ("input", Array x); ("output", Array out)]%string (n_copy op) (times_input (n_expr op)) (ashape x)
  end.
(** Applied to an array: the shape is verified if it is known (see ShapeModel.v). *)
Definition nex_apply (op : nexdiag) (x out : array K) : result (array K) :=
  match n_shape op with
  | Some s => if shape_eqb s (ashape x) then nex_direct op x out else Raise ValueError
  | None => nex_direct op x out
  end.
(** get_data, 711-715: [frame], the names of the module linear.py, are used if there is no dictionary. *)
Definition nex_data (frame : dict) (h : heap) (op : nexdiag) : result (array K) :=
  evaluate [(n_var op, Array (n_data op))] (match n_globals op with None => frame | Some r => h r end) (n_expr op).

(** The rules of DiagonalBase, core.py 4155-4205, with another operator of data [d2] (see [get_data] for those of the other
    classes).  [first]: is this operator the first one? *)
Definition nex_rule (f : K -> K -> K) (fb : bool -> bool -> bool) (first : bool) (frame : dict) (h : heap) (op : nexdiag)
    (x2 : gdata K * bcast) : option (result (diag K)) :=
  match common (n_b op) (snd x2) with
  | None => None
  | Some _ =>
      match nex_data frame h op with
      | Raise e => Some (Raise e)
      | Ok d => to_diag (if first then rule_broadcast f fb (Nums d, n_b op) x2 else rule_broadcast f fb x2 (Nums d, n_b op))
      end
  end.
Definition nex_sum := nex_rule radd orb.
Definition nex_compose := nex_rule rmul andb.

(** _rule_block, linear.py 717-732, and BroadcastingBase._rule_block: the parts have the expression, the variable and the
    dictionary of the operator. *)
Definition split_nex (h : heap) (op : nexdiag) (n : nat) (shape : option (list nat)) (partition : option (list (option nat)))
    (ax : option axis) : result (option (list nexdiag)) :=
  parts_of op (fun d => Ok (nexpr h d (n_expr op) (n_globals op) (n_var op) (Some (n_b op)))) n
           (rule_block (n_data op) (n_b op) shape partition ax).

(** ** NumexprOperator.direct, nonlinear.py 673-679 *)

(** [frame]: the names of the module nonlinear.py; the dictionary is not copied.  None: operation_assignment. *)
Definition numexpr_direct (frame : dict) (h : heap) (ex : list (token K)) (globals : option nat) (x out : array K) (o : option operation)
    : result (array K) :=
  let globals := match globals with None => frame | Some r => h r end in
  let locals := [("self", Other); ("input", Array x); ("output", Array out); ("operation", Other); ("expr", Other)]%string in
  match o with
  | None => evaluate_out locals globals ex (ashape out)
  | Some o => evaluate_out (("op"%string, Other) :: locals) globals (updating (operation_symbol o) ex) (ashape out)
  end.
End Numexpr.
Arguments object : clear implicits.
Arguments dict : clear implicits.
Arguments heap : clear implicits.
Arguments nexdiag : clear implicits.
