(** How the texts of operators are read. *)
From Coq Require Import Ascii String.
From Verif Require Import Base StrModel.
Local Open Scope nat_scope.

(** Expressions: names, functions with further arguments, products of names, applications, sums and element-wise products *)
Inductive tree := Name (n : text) | Fun (n args : text) | Prod (l : list text) | App (t u : tree) | Sum (l : list tree) | Mul (l : list tree).

(** The usual notation: f(u), f(u, args), (a * b)(u); the product of operators binds more tightly than the element-wise product, and this
    one more tightly than the sum; sums in sums and in products are in parentheses *)
Definition is_sum (t : tree) : bool := match t with Sum _ => true | _ => false end.
Definition is_mul (t : tree) : bool := match t with Mul _ => true | _ => false end.
Definition separated (sep : text) (l : list text) : text :=
  match l with [] => [] | x :: l => x ++ flat_map (fun y => sep ++ y) l end.
Fixpoint print (t : tree) : text :=
  match t with
  | Name n => n
  | Fun n args => n ++ lit "(..., " ++ args ++ lit ")"
  | Prod l => separated (lit " * ") l
  | App (Name n) u => n ++ lit "(" ++ print u ++ lit ")"
  | App (Fun n args) u => n ++ lit "(" ++ print u ++ lit ", " ++ args ++ lit ")"
  | App t u => lit "(" ++ print t ++ lit ")(" ++ print u ++ lit ")"
  | Sum l => separated (lit " + ") (map (fun t => if is_sum t then lit "(" ++ print t ++ lit ")" else print t) l)
  | Mul l => separated (lit " × ") (map (fun t => if is_sum t then lit "(" ++ print t ++ lit ")" else print t) l)
  end.

(** Names have letters, digits, - and _.  The further arguments of a function have no parenthesis. *)
Definition name_char (c : ascii) : bool :=
  let n := nat_of_ascii c in
  (Nat.leb 48 n && Nat.leb n 57) || (Nat.leb 65 n && Nat.leb n 90) || (Nat.leb 97 n && Nat.leb n 122) || Nat.eqb n 95 || Nat.eqb n 45.
Definition name (n : text) : Prop := n <> [] /\ forallb name_char n = true.
Definition arguments (a : text) : Prop := forallb (fun c => negb (Ascii.eqb c "(") && negb (Ascii.eqb c ")")) a = true /\ contains (lit "...") a = false.
Fixpoint well_formed (t : tree) : Prop :=
  let all := fix all l := match l with [] => True | t :: l => well_formed t /\ all l end in
  match t with
  | Name n => name n
  | Fun n a => name n /\ arguments a
  | Prod l => 2 <= List.length l /\ Forall name l
  | App t u => match t with App _ _ | Mul _ => False | _ => well_formed t end /\ well_formed u
  | Sum l => 2 <= List.length l /\ all l
  | Mul l => 2 <= List.length l /\ all l /\ Forall (fun t => is_mul t = false) l
  end.

(** What expressions and operators compute: for any values, sums and products of values, and any meaning of the texts of the operators that
    are not composite *)
Section Values.
Context {V : Type} (sum_of prod_of : list V -> V) (meaning : text -> V -> V) (blocks : kind -> list (V -> V) -> V -> V).
Fixpoint value (t : tree) (x : V) : V :=
  match t with
  | Name n => meaning n x
  | Fun n args => meaning (n ++ lit "(..., " ++ args ++ lit ")") x
  | Prod l => fold_right meaning x l
  | App t u => value t (value u x)
  | Sum l => sum_of (map (fun t => value t x) l)
  | Mul l => prod_of (map (fun t => value t x) l)
  end.
Fixpoint computes (o : operator) (x : V) : V :=
  match o with
  | Atom _ (Ok t) => meaning t x
  | Atom _ _ => x
  | Composite Addition l => sum_of (map (fun o => computes o x) l)
  | Composite Multiplication l => prod_of (map (fun o => computes o x) l)
  | Composite Composition l => (fix compose l := match l with [] => x | o :: l => computes o (compose l) end) l
  | Composite k l => blocks k (map computes l) x
  end.
End Values.

(** The operators that are shown well: names and functions; sums; element-wise products that are not nested; compositions in which sums
    and products stand alone, that is they are the last operand, or linear without a linear neighbour. *)
Inductive chain (P : operator -> Prop) : list operator -> Prop :=
| c_last o : P o -> chain P [o]
| c_nonlinear t l : P (Atom false t) -> chain P l -> chain P (Atom false t :: l)
| c_single o o' l : P o -> is_linear o = true -> is_linear o' = false -> chain P (o' :: l) -> chain P (o :: o' :: l)
| c_names ns : 2 <= List.length ns -> Forall name ns -> chain P (map (fun n => Atom true (Ok n)) ns)
| c_run ns o' l : 2 <= List.length ns -> Forall name ns -> is_linear o' = false -> chain P (o' :: l) -> chain P (map (fun n => Atom true (Ok n)) ns ++ o' :: l).
Inductive displayable : operator -> Prop :=
| d_name b n : name n -> displayable (Atom b (Ok n))
| d_function n args : name n -> arguments args -> displayable (Atom false (Ok (n ++ lit "(..., " ++ args ++ lit ")")))
| d_sum l : 2 <= List.length l -> Forall displayable l -> displayable (Composite Addition l)
| d_product l : 2 <= List.length l -> Forall displayable l -> Forall (fun o => match o with Composite Multiplication _ => False | _ => True end) l -> displayable (Composite Multiplication l)
| d_composition l : 2 <= List.length l -> chain displayable l -> displayable (Composite Composition l).
