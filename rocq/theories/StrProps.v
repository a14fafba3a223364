(** Properties of the texts of operators (C59). *)
From Coq Require Import Ascii String.
From Verif Require Import Base StrModel StrSpec StrProofs.
Local Open Scope nat_scope.

(** The text of an operator that is made of named operators by sums, element-wise products and compositions, in which sums and products
    stand alone inside compositions, is the usual notation of an expression that computes what the operator computes, for any values, any
    sums and products of values and any meaning of the names. *)
Theorem C59_reading (o : operator) : displayable o ->
  exists t, well_formed t /\ str o = Ok (print t) /\
  forall (V : Type) (sum_of prod_of : list V -> V) meaning blocks x, value sum_of prod_of meaning t x = computes sum_of prod_of meaning blocks o x.
Proof. intros H. destruct (displayable_reads o H) as (t & W & E & V & _). exists t. auto. Qed.
Print Assumptions C59_reading.

(** There is only one way to read a text. *)
Theorem C59_unambiguous (t t' : tree) : well_formed t -> well_formed t' -> print t = print t' -> t = t'.
Proof. exact (print_injective t t'). Qed.
Print Assumptions C59_unambiguous.

(** So two such operators with the same text compute the same. *)
Theorem C59_same_text (o o' : operator) : displayable o -> displayable o' -> str o = str o' ->
  forall (V : Type) (sum_of prod_of : list V -> V) meaning blocks x, computes sum_of prod_of meaning blocks o x = computes sum_of prod_of meaning blocks o' x.
Proof.
  intros H H' E V s p m b x. destruct (displayable_reads o H) as (t & W & Et & Vt & _), (displayable_reads o' H') as (t' & W' & Et' & Vt' & _).
  assert (t = t') as <- by (apply print_injective; [exact W|exact W'|congruence]). rewrite <- (Vt V s p m b x). apply Vt'.
Qed.
Print Assumptions C59_same_text.

Definition C59_case_operator : operator :=
  Composite Multiplication [Composite Addition [lin "a"; Composite Composition [lin "b"; lin "c"]]; Composite Composition [lin "a"; lin "b"; clip "0" "2.5"; Composite Addition [lin "a"; lin "d"]]].
Example C59_case : str C59_case_operator = Ok (lit "(a + b * c) × (a * b)(clip(a + d, 0, 2.5))") /\ displayable C59_case_operator.
Proof.
  split; [vm_compute; reflexivity|]. assert (N : forall b s, match s with EmptyString => false | _ => forallb name_char (lit s) end = true -> displayable (Atom b (Ok (lit s)))) by (intros; apply d_name, name_lit; assumption).
  apply d_product; [cbn; lia| |repeat constructor]. apply Forall_cons; [|apply Forall_cons; [|constructor]].
  - apply d_sum; [cbn; lia|]. apply Forall_cons; [apply N; reflexivity|]. apply Forall_cons; [|constructor]. apply d_composition; [cbn; lia|]. apply (c_names displayable [lit "b"; lit "c"]); [cbn; lia|].
    apply Forall_cons; [apply name_lit; reflexivity|]. apply Forall_cons; [apply name_lit; reflexivity|constructor].
  - apply d_composition; [cbn; lia|]. apply (c_run displayable [lit "a"; lit "b"]); [cbn; lia| |reflexivity|].
    + apply Forall_cons; [apply name_lit; reflexivity|]. apply Forall_cons; [apply name_lit; reflexivity|constructor].
    + apply c_nonlinear; [apply (d_function (lit "clip") (lit "0, 2.5")); [apply name_lit; reflexivity|split; reflexivity]|]. apply c_last, d_sum; [cbn; lia|]. repeat (apply Forall_cons; [apply N; reflexivity|]). constructor.
Qed.

(** The product of a sum and an operator is shown without parentheses: (a + b) * c and a + b * c have the same text but compute 4 x and 3 x
    if a and b are the identity and c is the double. *)
Theorem C59_product_refuted :
  let o := Composite Composition [Composite Addition [lin "a"; lin "b"]; lin "c"] in let o' := Composite Addition [lin "a"; Composite Composition [lin "b"; lin "c"]] in
  str o = Ok (lit "a + b * c") /\ str o' = Ok (lit "a + b * c") /\ zvalue o 1 = 4%Z /\ zvalue o' 1 = 3%Z.
Proof. repeat split; vm_compute; reflexivity. Qed.
Print Assumptions C59_product_refuted.

(** The composition of a sum of operators that are not linear with an operator is shown as if only the last one was applied to it:
    (f + g)(c) and f + g(c) have the same text. *)
Theorem C59_application_refuted :
  let o := Composite Composition [Composite Addition [nonlin "f"; nonlin "g"]; lin "c"] in let o' := Composite Addition [nonlin "f"; Composite Composition [nonlin "g"; lin "c"]] in
  str o = Ok (lit "f + g(c)") /\ str o' = Ok (lit "f + g(c)") /\ zvalue o 1 = 4%Z /\ zvalue o' 1 = 3%Z.
Proof. repeat split; vm_compute; reflexivity. Qed.
Print Assumptions C59_application_refuted.

(** The same for element-wise products. *)
Theorem C59_multiplication_refuted :
  let o := Composite Composition [Composite Multiplication [nonlin "f"; nonlin "g"]; lin "c"] in let o' := Composite Multiplication [nonlin "f"; Composite Composition [nonlin "g"; lin "c"]] in
  str o = Ok (lit "f × g(c)") /\ str o' = Ok (lit "f × g(c)") /\ zvalue o 1 = 4%Z /\ zvalue o' 1 = 2%Z.
Proof. repeat split; vm_compute; reflexivity. Qed.
Print Assumptions C59_multiplication_refuted.

(** The dots that stand for the blocks left out are mistaken for the place of the argument: a block diagonal operator with three blocks f, g
    and h, applied after the operator a, is shown as if it had the block a. *)
Theorem C59_dots_refuted :
  str (Composite BlockDiagonal [nonlin "f"; nonlin "g"; nonlin "h"]) = Ok (lit "f ⊕ ... ⊕ h") /\
  str (Composite Composition [Composite BlockDiagonal [nonlin "f"; nonlin "g"; nonlin "h"]; lin "a"]) = Ok (lit "f ⊕ a ⊕ h").
Proof. split; vm_compute; reflexivity. Qed.
Print Assumptions C59_dots_refuted.

(** Block columns and rows are shown by their first and last blocks only, whatever is between them and however many there are. *)
Theorem C59_blocks_refuted (k : kind) (f h : operator) (l l' : list operator) (t u : text) :
  k = BlockColumn \/ k = BlockRow -> 0 < List.length l -> 0 < List.length l' -> str f = Ok t -> str h = Ok u -> (exists ts, each l = Ok ts) -> (exists ts, each l' = Ok ts) ->
  str (Composite k (f :: l ++ [h])) = str (Composite k (f :: l' ++ [h])) /\ exists s, str (Composite k (f :: l ++ [h])) = Ok s.
Proof. intros K L L'. exact (elided k f h l l' t u L L' K). Qed.
Print Assumptions C59_blocks_refuted.

(** A square, or anything that has a square among its operands, has no text: SquareOperator.__str__ returns bytes, so that str raises
    TypeError. *)
Theorem C59_square_refuted (k : kind) (l : list operator) : str square = Raise TypeError /\ (In square l -> exists e, str (Composite k l) = Raise e).
Proof. split; [reflexivity|apply square_raises]. Qed.
Print Assumptions C59_square_refuted.
