(** Independent vocabulary for C54. *)
From Coq Require Import String.
From Verif Require Import Base Algebra BlockModel BlockSpec DiagModel DiagSpec NexModel.
Open Scope list_scope.

(** The first binding of a name counts. *)
Definition binds {T} (d : list (string * T)) (s : string) (o : T) : Prop :=
  exists d1 d2, d = d1 ++ (s, o) :: d2 /\ ~ In s (map fst d1).
(** The name [s] stands for the number [c]. *)
Definition number_of {K : dring} (d : dict K) (s : string) (c : K) : Prop :=
  exists a, binds d s (Array a) /\ ashape a = [] /\ aval a [] = c.
(** The dictionary that the user has given, with its content in [h]. *)
Definition given {K : dring} (h : heap K) (globals : option nat) : dict K := match globals with None => [] | Some r => h r end.

(** The names that belong to the methods of the operators. *)
Definition diag_names : list string := ["self"; "input"; "output"]%string.
Definition numexpr_names : list string := ["self"; "input"; "output"; "operation"; "expr"; "op"]%string.

(** The functions of the expression exist, and its names are [vars] and names of the dictionary that stand for the numbers
    [env]; none of those is [reserved]. *)
Definition closed {K : dring} (ar : arith K) (d : dict K) (reserved vars : list string) (env : string -> K) (e : expr K) : Prop :=
  (forall f, In f (functions e) -> a_fun ar f <> None) /\
  (forall s, In s (names e) -> ~ In s vars -> ~ In s reserved /\ number_of d s (env s)).

(** The expression as a function of one variable, the other names standing for numbers. *)
Definition bind {K : dring} (env : string -> K) (var : string) (v : K) (s : string) : K := if String.eqb s var then v else env s.
Definition meaning {K : dring} (ar : arith K) (env : string -> K) (var : string) (e : expr K) (v : K) : K := value ar (bind env var v) e.
