(** Properties of the associated operators of expressions (C57). *)
From Verif Require Import Base FlagsModel Algebra Matrix FlagsSpec FlagsProofs AssocModel AssocSpec AssocProofs AdjModel AdjSpec AdjProofs Gauss.

(** An operator of any sizes, whose flags are true and whose rules and methods are right: any chain of C, T, H, I that computes
    something computes the conjugate, transpose, adjoint or inverse that it stands for.  C08 says it of square operators whose rules
    are always right; here an inverse may be missing. *)
Theorem C57_operator (R : cring) (conj : conjugation R) (f : flags) (v : value R) (rule meth : assoc -> bool) (rules methods : assoc -> option (value R)) :
  (forall a, conj (conj a) = a) -> v <> None -> honest_flags conj v f -> right_plain conj v rule meth rules methods ->
  right conj (plain conj f v rule meth rules methods).
Proof. intros conjK. exact (plain_right conj conjK f v rule meth rules methods). Qed.
Print Assumptions C57_operator.

(** Whatever is built from right operators by sums, products and groups, to any depth, is right: its flags are true of the sum or
    product of the matrices, and every chain of C, T, H, I reached from it computes what it stands for. *)
Theorem C57_expression (R : cring) (conj : conjugation R) (P : operator R -> Prop) (o : operator R) :
  (forall a, conj (conj a) = a) -> (forall o, P o -> right conj o) -> expression conj P o -> right conj o.
Proof. intros conjK H. exact (expression_right conj conjK P H o). Qed.
Print Assumptions C57_expression.

(** If the operands of an expression have all their conjugates, transposes and adjoints then so has the expression. *)
Theorem C57_available (R : cring) (conj : conjugation R) (P : operator R -> Prop) (o : operator R) :
  (forall o, P o -> without_inverses o) -> expression conj P o -> without_inverses o.
Proof. intros H. exact (expression_without_inverses conj P H o). Qed.
Print Assumptions C57_available.

(** If the operands of a product or of a group have also their inverses then so has the product. *)
Theorem C57_inverse_available (R : cring) (conj : conjugation R) (k : composite) (complex : bool) (f : flags) (operands : list (operator R)) :
  k <> Sum -> composite_flags k complex (map o_flags operands) = Ok f -> Forall with_inverses operands -> with_inverses (compose conj k f operands).
Proof. exact (compose_with_inverses conj k complex f operands). Qed.
Print Assumptions C57_inverse_available.

Example C57_expression_case : expression Gconj (fun o => right Gconj o /\ without_inverses o) sample /\
  elements (o_chain sample []) = Some (1, 1, [GI 7 11]) /\ elements (o_chain sample [AH]) = Some (1, 1, [GI 7 (-11)]) /\ elements (o_chain sample [AT; AC; AC]) = Some (1, 1, [GI 7 11]).
Proof.
  split; [|vm_compute; auto]. apply (e_compose _ _ Sum true).
  - constructor; [|constructor; [|constructor]].
    + apply (e_compose _ _ Product true); [|reflexivity|split; discriminate|discriminate|discriminate].
      constructor; [|constructor; [|constructor]]; apply e_operand, given_right.
    + apply e_operand, given_right.
  - reflexivity.
  - split; discriminate.
  - intros _ H. inversion H as [|? ? H1 H2]. discriminate H1.
  - discriminate.
Qed.
Example C57_inverse_available_case : Forall with_inverses [unit_op (GI 0 1) (GI 0 (-1)); unit_op (GI (-1) 0) (GI (-1) 0)] /\
  composite_flags Product true (map o_flags [unit_op (GI 0 1) (GI 0 (-1)); unit_op (GI (-1) 0) (GI (-1) 0)]) = Ok (get_flags Product true (map o_flags [unit_op (GI 0 1) (GI 0 (-1)); unit_op (GI (-1) 0) (GI (-1) 0)])) /\
  elements (o_chain (composed Product [unit_op (GI 0 1) (GI 0 (-1)); unit_op (GI (-1) 0) (GI (-1) 0)]) [AI; AC]) = Some (1, 1, [GI 0 (-1)]).
Proof. split; [exact unit_inverses|]. vm_compute. auto. Qed.

(** The adjoint of the sum of two complex symmetric operators is the sum itself: AdditionOperator._merge_flags, core.py 2031, reads
    the flag symmetric of the operands for the flag hermitian, and the adjoint of a hermitian operator is the operator. *)
Theorem C57_adjoint_refuted : exists (operands : list (operator Gring)) (f : flags) (w : value Gring),
  Forall (right Gconj) operands /\ composite_flags Sum true (map o_flags operands) = Ok f /\ dtypes_agree Sum true (map o_flags operands) /\
  combined Sum (map o_value operands) <> None /\ o_chain (compose Gconj Sum f operands) [AH] = Some w /\
  ~ means Gconj (combined Sum (map o_value operands)) (bits [AH]) w.
Proof. exact sum_adjoint_wrong. Qed.
Print Assumptions C57_adjoint_refuted.

(** A sum does not have an inverse even if the sum of the matrices is invertible: AdditionOperator has no rule and no method for it.
    Then neither has a product with such a sum. *)
Theorem C57_inverse_refuted (R : cring) (conj : conjugation R) (complex : bool) (f : flags) (operands : list (operator R)) :
  composite_flags Sum complex (map o_flags operands) = Ok f -> o_chain (compose conj Sum f operands) [AI] = None.
Proof. exact (sum_no_inverse conj complex f operands). Qed.
Print Assumptions C57_inverse_refuted.
Example C57_inverse_refuted_case : exists f, composite_flags Sum true (map o_flags [given 1 1 cell; given 1 1 cell]) = Ok f.
Proof. eexists. reflexivity. Qed.
