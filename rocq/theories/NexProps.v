(** C54: operators that evaluate an expression with numexpr. *)
From Coq Require Import String.
From Verif Require Import Base Algebra SeqModel BlockModel BlockSpec BlockProofs DiagModel DiagRulesModel DiagSpec DiagProofs DiagRules DiagProps DistModel DistSpec DistProofs NexModel NexSpec NexProofs.
Open Scope list_scope.

(** The texts that are handed to numexpr have the expression of the user as an operand, whatever its operators. *)
Theorem C54_text_diagonal {K : Type} (ts : list (token K)) e : read ts = Some e -> read (times_input ts) = Some (Bin Times e (Var "input"%string)).
Proof. apply times_input_read. Qed.
Theorem C54_text_update {K : Type} (ts : list (token K)) e o : read ts = Some e ->
  read (updating (operation_symbol o) ts) = Some (Bin (operation_symbol o) (Var "output"%string) e).
Proof. apply updating_read. Qed.

(** DiagonalNumexprOperator: each element is multiplied by the value of the expression on the element of the data that faces
    it, whatever the output contains.  The names of the dictionary stand for numbers. *)
Theorem C54_direct_partial {K : dring} (ar : arith K) h data ex gd var bo e env (x out : array K) :
  let op := nexpr h data ex gd var bo in
  read ex = Some e -> closed ar (given h gd) diag_names [var] env e -> ~ In var diag_names ->
  fits (n_b op) (ashape data) (ashape x) ->
  exists y, nex_apply ar op x out = Ok y /\ elementwise (fun idx v => rmul (meaning ar env var e (coefficient (n_b op) data idx)) v) x y.
Proof. intros. eapply nex_apply_ok; eauto. Qed.
(** Other inputs are refused. *)
Theorem C54_rejects {K : dring} (ar : arith K) h data ex gd var bo e env (x out y : array K) :
  let op := nexpr h data ex gd var bo in
  read ex = Some e -> closed ar (given h gd) diag_names [var] env e -> ~ In var diag_names -> In var (names e) ->
  nex_apply ar op x out = Ok y -> fits (n_b op) (ashape data) (ashape x).
Proof. intros. eapply nex_apply_fits; eauto. Qed.

(** get_data gives the values of the expression, if the dictionary still has the same numbers, whatever the names of the module. *)
Theorem C54_data_partial {K : dring} (ar : arith K) h data ex gd var bo e env frame h' :
  read ex = Some e -> closed ar (given h gd) diag_names [var] env e -> closed ar (given h' gd) [] [var] env e -> In var (names e) ->
  exists g, nex_data ar frame h' (nexpr h data ex gd var bo) = Ok g /\ ashape g = ashape data /\
    forall idx, inside (ashape data) idx -> aval g idx = meaning ar env var e (aval data idx).
Proof. intros HR HC HC' Hv. exact (nex_data_ok ar h data ex gd var bo e env HR HC frame h' HC' Hv). Qed.

(** Sums and products with the other diagonal operators *)
Theorem C54_sum_partial {K : dring} (ar : arith K) h data ex gd var bo e env frame h' first op2 x2 r (x out y1 y2 : array K) :
  let op := nexpr h data ex gd var bo in
  read ex = Some e -> closed ar (given h gd) diag_names [var] env e -> closed ar (given h' gd) [] [var] env e ->
  ~ In var diag_names -> In var (names e) -> proper (n_b op) (ashape data) -> made op2 -> get_data op2 = Some x2 ->
  nex_apply ar op x out = Ok y1 -> apply op2 x = Ok y2 -> nex_sum ar first frame h' op x2 = Some r ->
  exists op' z, r = Ok op' /\ made op' /\ apply op' x = Ok z /\ combines radd y1 y2 z.
Proof. intros op HR HC HC' HN Hv PR M G E1 E2 R. exact (nex_sum_ok ar h data ex gd var bo e env HR HC HN frame h' first op2 x2 r x out y1 y2 HC' Hv PR M G E1 E2 R). Qed.
Theorem C54_product_left_partial {K : dring} (ar : arith K) h data ex gd var bo e env frame h' op2 x2 r (x out y z : array K) :
  let op := nexpr h data ex gd var bo in
  read ex = Some e -> closed ar (given h gd) diag_names [var] env e -> closed ar (given h' gd) [] [var] env e ->
  ~ In var diag_names -> In var (names e) -> proper (n_b op) (ashape data) -> made op2 -> get_data op2 = Some x2 ->
  apply op2 x = Ok y -> nex_apply ar op y out = Ok z -> nex_compose ar true frame h' op x2 = Some r ->
  exists op' z', r = Ok op' /\ made op' /\ apply op' x = Ok z' /\ aeq z' z.
Proof. intros op HR HC HC' HN Hv PR M G E1 E2 R. exact (nex_left_ok ar h data ex gd var bo e env HR HC HN frame h' op2 x2 r x out y z HC' Hv PR M G E1 E2 R). Qed.
Theorem C54_product_right_partial {K : dring} (ar : arith K) h data ex gd var bo e env frame h' op2 x2 r (x out y z : array K) :
  let op := nexpr h data ex gd var bo in
  read ex = Some e -> closed ar (given h gd) diag_names [var] env e -> closed ar (given h' gd) [] [var] env e ->
  ~ In var diag_names -> In var (names e) -> proper (n_b op) (ashape data) -> made op2 -> get_data op2 = Some x2 ->
  nex_apply ar op x out = Ok y -> apply op2 y = Ok z -> nex_compose ar false frame h' op x2 = Some r ->
  exists op' z', r = Ok op' /\ made op' /\ apply op' x = Ok z' /\ aeq z' z.
Proof. intros op HR HC HC' HN Hv PR M G E1 E2 R. exact (nex_right_ok ar h data ex gd var bo e env HR HC HN frame h' op2 x2 r x out y z HC' Hv PR M G E1 E2 R). Qed.

(** Distributed over the blocks of a block operator (see C53), the operators for the parts give the parts of the result. *)
Theorem C54_pieces_partial {K : dring} (ar : arith K) h data ex gd var bo e env h' shape part ax p a ops (x out y : array K) :
  let op := nexpr h data ex gd var bo in
  read ex = Some e -> closed ar (given h gd) diag_names [var] env e -> closed ar (given h' gd) diag_names [var] env e -> ~ In var diag_names ->
  proper (n_b op) (ashape data) -> fits (n_b op) (ashape data) (ashape x) ->
  partitioned ax p (ashape x) a -> sizes part p -> ready shape (n_b op) (ashape data) (ashape x) ax a -> replicable (n_shape op) shape (n_b op) ->
  split_nex h' op (length p) shape (Some part) (Some ax) = Ok (Some ops) -> nex_apply ar op x out = Ok y ->
  length ops = length p /\
  forall k dflt out', k < length p -> exists y', nex_apply ar (nth k ops dflt) (piece ax a p k x) out' = Ok y' /\ aeq y' (piece ax a p k y).
Proof. intros op HR HC HC' HN PR F P S R RP E Y. exact (split_nex_ok ar h data ex gd var bo e env h' shape part ax p a ops x out y HR HC HC' HN PR F P S R RP E Y). Qed.

(** NumexprOperator: the function of the input is assigned to the output, or combined with it. *)
Theorem C54_numexpr_partial {K : dring} (ar : arith K) frame h ex gd e env (x out : array K) o :
  read ex = Some e -> closed ar (given h gd) numexpr_names ["input"%string] env e -> ashape out = ashape x ->
  exists y, numexpr_direct ar frame h ex gd x out o = Ok y /\ ashape y = ashape x /\
    forall idx, inside (ashape x) idx -> aval y idx =
      match o with
      | None => meaning ar env "input" e (aval x idx)
      | Some o => a_bin ar (match o with IAdd => Plus | ISub => Minus | IMul => Times | ITruediv => Slash end) (aval out idx) (meaning ar env "input" e (aval x idx))
      end.
Proof.
  intros R C S. destruct (@numexpr_ok K ar frame h ex gd e env x out o R C S) as (y & E1 & E2 & E3). exists y. split; [exact E1|]. split; [exact E2|]. intros idx I. rewrite (E3 idx I). destruct o as [[]|]; reflexivity.
Qed.

(** *** Examples *)
Open Scope string_scope.
Definition truth (b : bool) : Z := if b then 1%Z else 0%Z.
Definition zbin (o : bop) (x y : ZD) : ZD :=
  match o with
  | Lt => truth (x <? y)%Z | Gt => truth (y <? x)%Z | Le => truth (x <=? y)%Z | Ge => truth (y <=? x)%Z
  | EqEq => truth (x =? y)%Z | Ne => truth (negb (x =? y)%Z)
  | BOr => Z.lor x y | BXor => Z.lxor x y | BAnd => Z.land x y | Shl => Z.shiftl x y | Shr => Z.shiftr x y
  | Plus => (x + y)%Z | Minus => (x - y)%Z | Times => (x * y)%Z | Slash => (x / y)%Z | Percent => (x mod y)%Z
  end.
Definition zar : arith ZD :=
  {| a_bin := zbin; a_un := fun u x => match u with Neg => (- x)%Z | Pos => x | Inv => Z.lnot x end; a_pow := fun x y => (x ^ y)%Z : ZD;
     a_fun := fun f => if String.eqb f "abs" then Some (fun l => match l with [x] => Z.abs x : ZD | _ => 0%Z : ZD end) else None;
     a_times := fun x y => eq_refl |}.
Notation "'z' c" := (Num (c : ZD)) (at level 5).
(** 'a - 2 * data ** -1 ** 2' is read as in Python. *)
Example C54_read_example : read [Name "a"; Op Minus; z 2%Z; Op Times; Name "data"; StarStar; Op Minus; z 1%Z; StarStar; z 2%Z] =
  Some (Bin Minus (Var "a") (Bin Times (Lit (2%Z : ZD)) (Pow (Var "data") (Un Neg (Pow (Lit (1%Z : ZD)) (Lit (2%Z : ZD))))))).
Proof. reflexivity. Qed.
(** 'a + abs(data)' with a = 10: without the parentheses, only the last operand would be multiplied *)
Definition sum_text : list (token ZD) := [Name "a"; Op Plus; Name "abs"; LPar; Name "data"; RPar].
Definition sum_expr : expr ZD := Bin Plus (Var "a") (Call "abs" [Var "data"]).
Definition ten : heap ZD := fun _ => [("a", Array (scalar (A := ZD) 10%Z))].
Definition twenty : heap ZD := fun _ => [("a", Array (scalar (A := ZD) 20%Z))].
Definition ten_env : string -> ZD := fun s => if String.eqb s "a" then 10%Z else 0%Z.
Lemma ten_closed reserved : ~ In "a" reserved -> closed zar (given ten (Some 0)) reserved ["data"] ten_env sum_expr.
Proof.
  intros R. split.
  - intros f [<-|[]]. discriminate.
  - intros s [<-|[<-|[]]] N; [|destruct N; cbn; auto]. split; auto. exists (scalar (A := ZD) 10%Z). split; [|split; reflexivity].
    exists [], []. split; [reflexivity|]. intros [].
Qed.
Ltac not_in := cbn; intuition discriminate.
Definition opx : nexdiag ZD := nexpr ten (vec [1; -2; 3]%Z) sum_text (Some 0) "data" None.
Example C54_direct_example : read sum_text = Some sum_expr /\ closed zar (given ten (Some 0)) diag_names ["data"] ten_env sum_expr /\
  ~ In "data" diag_names /\ In "data" (names sum_expr) /\ fits (n_b opx) [3] [3] /\ proper (n_b opx) [3] /\
  elements (nex_apply zar opx (vec [1; 1; 2]%Z) (vec [7; 7; 7]%Z)) = Some ([3], [11; 12; 26]%Z) /\
  elements (nex_data zar [] ten opx) = Some ([3], [11; 12; 13]%Z).
Proof.
  split; [reflexivity|]. split; [apply ten_closed; not_in|]. split; [not_in|]. split; [cbn; auto|]. split; [reflexivity|]. split; [discriminate|].
  split; vm_compute; reflexivity.
Qed.
Example C54_sum_example : exists r, nex_sum zar true [] ten opx (Nums (vec [1; 2; 4]%Z), Disabled) = Some r /\
  elements (rbind r (fun op => apply op (vec [1; 1; 2]%Z))) = Some ([3], [12; 14; 34]%Z).
Proof. eexists. split; [reflexivity|]. vm_compute. reflexivity. Qed.
Example C54_pieces_example : match split_nex ten opx 2 None (Some [Some 2; Some 1]) (Some (Axis 0)) with
  | Ok (Some [o1; o2]) => elements (nex_apply zar o1 (vec [1; 1]%Z) (vec [7; 7]%Z)) = Some ([2], [11; 12]%Z) /\
                          elements (nex_apply zar o2 (vec [2]%Z) (vec [7]%Z)) = Some ([1], [26]%Z)
  | _ => False
  end /\ partitioned (Axis 0) [2; 1] [3] 0 /\ ready None (n_b opx) [3] [3] (Axis 0) 0 /\ replicable (n_shape opx) None (n_b opx).
Proof.
  split; [split; vm_compute; reflexivity|]. split; [split; [reflexivity|split; reflexivity]|]. split; [split; [reflexivity|exact I]|right; left; reflexivity].
Qed.
Example C54_numexpr_example : elements (numexpr_direct zar [] ten [Name "a"; Op Minus; Name "input"] (Some 0) (vec [1; 2]%Z) (vec [100; 200]%Z) (Some ISub)) =
  Some ([2], [91; 192]%Z) /\ closed zar (given ten (Some 0)) numexpr_names ["input"] ten_env (Bin Minus (Var "a") (Var "input")).
Proof.
  split; [vm_compute; reflexivity|]. split; [intros f []|]. intros s [<-|[<-|[]]] N; [|destruct N; cbn; auto]. split; [not_in|].
  exists (scalar (A := ZD) 10%Z). split; [|split; reflexivity]. exists [], []. split; [reflexivity|]. intros [].
Qed.

(** *** What is false *)

(** The variable may not be called 'input': DiagonalNumexprOperator([2, 3], 'input', var='input') squares its input, although
    its data is [2, 3]. *)
Theorem C54_variable_input_refuted :
  let op := nexpr (fun _ => []) (vec [2; 3]%Z) [Name "input"] None "input" None in
  elements (nex_apply zar op (vec [5; 7]%Z) (vec [0; 0]%Z)) = Some ([2], [25; 49]%Z) /\
  elements (nex_data zar [] (fun _ => []) op) = Some ([2], [2; 3]%Z).
Proof. split; vm_compute; reflexivity. Qed.
(** When the dictionary of the user changes, the operator is not changed, but its sums and products with other diagonal
    operators are: direct uses a copy of the dictionary, get_data does not. *)
Theorem C54_dictionary_refuted :
  elements (nex_apply zar opx (vec [1; 1; 2]%Z) (vec [7; 7; 7]%Z)) = Some ([3], [11; 12; 26]%Z) /\
  elements (match nex_compose zar true [] twenty opx (Nums (scalar (A := ZD) 1%Z), Scalar) with
            | Some r => rbind r (fun op => apply op (vec [1; 1; 2]%Z)) | None => Raise KeyError end) = Some ([3], [21; 22; 46]%Z).
Proof. split; vm_compute; reflexivity. Qed.
(** Arrays of the dictionary are not transposed when the data is broadcast rightward, and the data is: the operator and its
    product with the identity are different. *)
Definition grid (l : list Z) : array ZD := Arr [2; 2] (fun idx => match idx with [i; j] => nth (2 * i + j) l 0%Z | _ => 0%Z end).
Theorem C54_rightward_array_refuted :
  let h : heap ZD := fun _ => [("g", Array (grid [1; 2; 3; 4]%Z))] in
  let op := nexpr h (grid [0; 0; 0; 0]%Z) [Name "data"; Op Plus; Name "g"] (Some 0) "data" (Some Rightward) in
  elements (nex_apply zar op (grid [1; 1; 1; 1]%Z) (grid [])) = Some ([2; 2], [1; 3; 2; 4]%Z) /\
  elements (match nex_compose zar true [] h op (Nums (scalar (A := ZD) 1%Z), Scalar) with
            | Some r => rbind r (fun op => apply op (grid [1; 1; 1; 1]%Z)) | None => Raise KeyError end) = Some ([2; 2], [1; 2; 3; 4]%Z).
Proof. split; vm_compute; reflexivity. Qed.
(** Arrays of the dictionary are not sliced when the operator is distributed over blocks: the operators for the blocks then
    raise an exception, or use the wrong elements. *)
Theorem C54_sliced_array_refuted :
  let h : heap ZD := fun _ => [("g", Array (vec [10; 20]%Z))] in
  let op := nexpr h (vec [1; 2]%Z) [Name "data"; Op Times; Name "g"] (Some 0) "data" None in
  elements (nex_apply zar op (vec [1; 1]%Z) (vec [0; 0]%Z)) = Some ([2], [10; 40]%Z) /\
  match split_nex h op 2 None (Some [Some 1; Some 1]) (Some (Axis 0)) with
  | Ok (Some [o1; o2]) => nex_apply zar o1 (vec [1]%Z) (vec [0]%Z) = Raise ValueError
  | _ => False
  end.
Proof. split; vm_compute; reflexivity. Qed.
(** The expression may not be a constant: the data of DiagonalNumexprOperator([1, 2], '5') is a scalar, and its sum with the
    identity refuses the inputs of shape (2,). *)
Theorem C54_constant_refuted :
  let op := nexpr (fun _ => []) (vec [1; 2]%Z) [z 5%Z] None "data" None in
  elements (nex_apply zar op (vec [1; 1]%Z) (vec [0; 0]%Z)) = Some ([2], [5; 5]%Z) /\
  (match nex_sum zar true [] (fun _ => []) op (Nums (scalar (A := ZD) 1%Z), Scalar) with
   | Some r => rbind r (fun op => apply op (vec [1; 1]%Z)) | None => Raise KeyError end) = Raise ValueError.
Proof. split; vm_compute; reflexivity. Qed.
(** A name 'output' of the dictionary of a NumexprOperator is not used: the memory in which the result will be written is. *)
Theorem C54_output_name_refuted :
  let h : heap ZD := fun _ => [("output", Array (scalar (A := ZD) 5%Z))] in
  elements (numexpr_direct zar [] h [Name "output"; Op Times; Name "input"] (Some 0) (vec [1; 2]%Z) (vec [100; 200]%Z) None) = Some ([2], [100; 400]%Z).
Proof. vm_compute. reflexivity. Qed.
(** A name 'op' of the dictionary can be used, but not when the result is added to the output, as in a sum of operators. *)
Theorem C54_op_name_refuted :
  let h : heap ZD := fun _ => [("op", Array (scalar (A := ZD) 5%Z))] in
  elements (numexpr_direct zar [] h [Name "op"; Op Times; Name "input"] (Some 0) (vec [1; 2]%Z) (vec [100; 200]%Z) None) = Some ([2], [5; 10]%Z) /\
  numexpr_direct zar [] h [Name "op"; Op Times; Name "input"] (Some 0) (vec [1; 2]%Z) (vec [100; 200]%Z) (Some IAdd) = Raise TypeError.
Proof. split; vm_compute; reflexivity. Qed.

Print Assumptions C54_direct_partial.
Print Assumptions C54_pieces_partial.
Print Assumptions C54_numexpr_partial.
