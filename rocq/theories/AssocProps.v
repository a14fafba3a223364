(** Properties of the associated operators (C08). *)
From Verif Require Import Base.
From Coq Require Import ssreflect ssrfun ssrbool.
From Verif Require Import FlagsModel Algebra Matrix FlagsSpec FlagsProofs AssocModel AssocSpec AssocProofs Gauss.
Set Implicit Arguments.
Unset Strict Implicit.
Local Open Scope mx_scope.

(** Whatever the (true) flags and whatever the (right) rules and methods given, any chain of C, T, H and I leads to an
    operator, and if that operator has a direct method then it computes the matrix that the chain denotes. *)
Theorem C08_path_denotation (R : cring) (conj : conjugation R) (n : nat) (A Ai : mx R n n)
    (f : flags) (rule meth : assoc -> bool) (rsem msem : assoc -> mx R n n) (path : list attr) :
  involutive conj ->
  true_flags conj A f -> inverse_of A Ai rule meth -> right_methods conj A Ai rule meth rsem msem ->
  exists o, follow (link (generate f rule meth)) Self path = Some o /\
            forall M, sem conj A rsem msem o = Some M -> M = path_matrix conj A Ai path.
Proof. by move=> hK hf hi hm; exact: path_denotation. Qed.
Print Assumptions C08_path_denotation.

(** A projection, declared symmetric and idempotent, without any method. *)
Example C08_path_denotation_case : exists f,
  init_flags noflags (DString [Idempotent; Symmetric]) false None = Ok f /\
  true_flags zconj proj0 f /\ inverse_of proj0 zeromx (fun _ => false) (fun _ => false) /\
  right_methods zconj proj0 zeromx (fun _ => false) (fun _ => false) (fun _ => proj0) (fun g => proj0) /\
  follow (link (generate f (fun _ => false) (fun _ => false))) Self [AT; AH] = Some Self.
Proof.
eexists; split; first by [].
split; first by apply: (flags_sound_partial (base := noflags) (d := DString [Idempotent; Symmetric]) (cplx := false));
  [by []|exact: true_default|exact: proj0_declared|by move=> _; exact: proj0_real|by move=> _; exact: proj0_idem].
split.
  right; split; last by split=> // g _.
  move=> B e; have := el_ext _ _ 1 1 e; rewrite /proj0 /mulmx /onemx /scalarmx; rewrite !el_build; try lia; cbn [sum Nat.eqb]; rewrite !el_build; try lia; cbn; lia.
split; last by [].
by split=> // g [] // ->; apply: mx_list_eq; vm_compute.
Qed.

(** Two chains with the same parities of conjugations, transpositions and inversions lead to the same object, which
    exists.  What is missing: the combinations of flags that are not [coherent], for which it is false (below). *)
Theorem C08_same_object_partial (f0 : flags) (noncomplex : bool) (rule meth : assoc -> bool) (p q : list attr) :
  coherent (deduce f0 noncomplex) = true -> bits p = bits q ->
  follow (link (generate (deduce f0 noncomplex) rule meth)) Self p =
  follow (link (generate (deduce f0 noncomplex) rule meth)) Self q /\
  follow (link (generate (deduce f0 noncomplex) rule meth)) Self p <> None.
Proof. exact: same_object. Qed.
Print Assumptions C08_same_object_partial.

Example C08_same_object_case :
  coherent (deduce (set_flag Linear default_flags) false) = true /\
  coherent (deduce (set_flag Symmetric default_flags) true) = true /\
  coherent (deduce (set_flag Unitary default_flags) false) = true /\
  bits [AC; AI; AT; AI] = bits [AH].
Proof. by []. Qed.

(** The operator is always its own double transpose, conjugate, adjoint and inverse, for the coherent flags. *)
Theorem C08_involution_partial (f0 : flags) (noncomplex : bool) (rule meth : assoc -> bool) (a : attr) :
  coherent (deduce f0 noncomplex) = true ->
  follow (link (generate (deduce f0 noncomplex) rule meth)) Self [a; a] = Some Self.
Proof. exact: involution_self. Qed.
Print Assumptions C08_involution_partial.

(** Finding: for a complex operator declared hermitian, A.H.C is not A.T. *)
Theorem C08_same_object_refuted : exists (f : flags) (rule meth : assoc -> bool) (p q : list attr),
  f = deduce (set_flag Hermitian default_flags) false /\ bits p = bits q /\
  follow (link (generate f rule meth)) Self p <> follow (link (generate f rule meth)) Self q.
Proof. exact: same_object_refuted. Qed.
Print Assumptions C08_same_object_refuted.

(** The transpose and the adjoint can be applied as soon as one of them is provided, except for a real operator that
    only has the method adjoint. *)
Theorem C08_transpose_available_partial (R : cring) (conj : conjugation R) (n : nat) (A : mx R n n)
    (rsem msem : assoc -> mx R n n) (f : flags) (rule meth : assoc -> bool) :
  rule aT || meth aT || rule aH || (~~ f Real && meth aH) = true ->
  sem conj A rsem msem (nT (generate f rule meth)) <> None /\
  sem conj A rsem msem (nH (generate f rule meth)) <> None.
Proof. exact: transpose_available. Qed.
Print Assumptions C08_transpose_available_partial.

(** The inverse and its conjugate can be applied as soon as the inverse is provided, if the operator is neither
    orthogonal nor unitary. *)
Theorem C08_inverse_available_partial (R : cring) (conj : conjugation R) (n : nat) (A : mx R n n)
    (rsem msem : assoc -> mx R n n) (f : flags) (rule meth : assoc -> bool) :
  f Orthogonal = false -> f Unitary = false -> rule aI || meth aI = true ->
  sem conj A rsem msem (nI (generate f rule meth)) <> None /\
  sem conj A rsem msem (nIC (generate f rule meth)) <> None.
Proof. exact: inverse_available. Qed.
Print Assumptions C08_inverse_available_partial.

(** Finding: a real operator that defines the method adjoint but not transpose has neither transpose nor adjoint. *)
Theorem C08_adjoint_refuted : exists (f : flags) (rule meth : assoc -> bool),
  init_flags noflags (DString [Linear; Real]) false None = Ok f /\ meth aH = true /\
  forall (R : cring) (conj : conjugation R) (n : nat) (A : mx R n n) (rsem msem : assoc -> mx R n n),
  sem conj A rsem msem (nH (generate f rule meth)) = None.
Proof. exact: adjoint_refuted. Qed.
Print Assumptions C08_adjoint_refuted.

(** Finding: an orthogonal operator that defines the method inverse but not transpose has no inverse. *)
Theorem C08_inverse_refuted : exists (f : flags) (rule meth : assoc -> bool),
  init_flags noflags (DString [Orthogonal]) false None = Ok f /\ meth aI = true /\
  forall (R : cring) (conj : conjugation R) (n : nat) (A : mx R n n) (rsem msem : assoc -> mx R n n),
  sem conj A rsem msem (nI (generate f rule meth)) = None.
Proof. exact: inverse_refuted. Qed.
Print Assumptions C08_inverse_refuted.
