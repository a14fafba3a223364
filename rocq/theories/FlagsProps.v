(** Properties of the flags (C07). *)
From Verif Require Import Base.
From Coq Require Import ssreflect ssrfun ssrbool.
From Verif Require Import FlagsModel Algebra Matrix FlagsSpec FlagsProofs Gauss.
Set Implicit Arguments.
Unset Strict Implicit.
Local Open Scope mx_scope.

(** Every deduced flag is true of the matrix, provided that the flag idempotent, if it comes out, is true.  What is
    missing: idempotent itself, which the library deduces wrongly (see the _refuted theorems). *)
Theorem C07_flags_sound_partial (R : cring) (conj : conjugation R) (n : nat) (A : mx R n n)
    (base : flags) (d : declared) (complex : bool) (f : flags) :
  init_flags base d complex None = Ok f ->
  true_flags conj A base -> true_declared conj A d -> (complex = false -> holds conj A Real) ->
  (f Idempotent = true -> holds conj A Idempotent) ->
  true_flags conj A f.
Proof. exact: flags_sound_partial. Qed.
Print Assumptions C07_flags_sound_partial.

Example C07_flags_sound_case : exists f, init_flags noflags (DString [Idempotent; Symmetric]) false None = Ok f /\
  true_flags zconj proj0 noflags /\ true_declared zconj proj0 (DString [Idempotent; Symmetric]) /\
  holds zconj proj0 Real /\ (f Idempotent = true -> holds zconj proj0 Idempotent) /\ f Hermitian = true.
Proof.
eexists; split; first by [].
split; [exact: true_default|split; [exact: proj0_declared|split; [exact: proj0_real|split; [by move=> _; exact: proj0_idem|by []]]]].
Qed.

(** For a real operator, every deduced flag but idempotent is true. *)
Theorem C07_real_flags_sound (R : cring) (conj : conjugation R) (n : nat) (A : mx R n n)
    (base : flags) (d : declared) (complex : bool) (f : flags) :
  init_flags base d complex None = Ok f ->
  true_flags conj A base -> true_declared conj A d -> holds conj A Real ->
  true_flags_but_idempotent conj A f.
Proof. move=> e hb hd hr; exact: (real_flags_sound e hb hd (fun _ => hr) hr). Qed.
Print Assumptions C07_real_flags_sound.

Example C07_real_flags_case : exists f, init_flags noflags (DString [Orthogonal; Symmetric]) false None = Ok f /\
  true_flags zconj minus1 noflags /\ true_declared zconj minus1 (DString [Orthogonal; Symmetric]) /\
  holds zconj minus1 Real /\ f Involutary = true.
Proof.
exists minus1_flags; split; first by [].
by split; [exact: true_default|split; [exact: minus1_declared|split; [exact: minus1_real|]]].
Qed.

(** Declared flags (and those of the class) are never switched off. *)
Theorem C07_declared_kept (base : flags) (d : declared) (complex : bool) (u : option ufunc) (f : flags) (k : flag) :
  init_flags base d complex u = Ok f -> set_declared base d k = true -> f k = true.
Proof. exact: declared_kept. Qed.
Print Assumptions C07_declared_kept.

Example C07_declared_kept_case : exists f,
  init_flags noflags (DDict [(Real, false); (Inplace, true); (AlignedInput, true)]) false None = Ok f /\
  set_declared noflags (DDict [(Real, false); (Inplace, true); (AlignedInput, true)]) AlignedInput = true /\
  f AlignedOutput = true.
Proof. by eexists. Qed.

(** The rules that an operator gets from flags that are true of it are true. *)
Theorem C07_rules_sound (R : cring) (conj : conjugation R) (n : nat) (A Ai : mx R n n) (f : flags) :
  true_flags conj A f -> Ai *m A = onemx _ ->
  forall s r, init_rules f s = Some r -> subject_matrix conj A Ai s = rhs_matrix A r.
Proof. exact: rules_sound. Qed.
Print Assumptions C07_rules_sound.

(** For real operators this holds of the deduced flags also when idempotent is wrong: the rule from involutary replaces
    the one from idempotent. *)
Theorem C07_rules_sound_real (R : cring) (conj : conjugation R) (n : nat) (A Ai : mx R n n)
    (base : flags) (d : declared) (complex : bool) (f : flags) :
  init_flags base d complex None = Ok f ->
  true_flags conj A base -> true_declared conj A d -> holds conj A Real -> Ai *m A = onemx _ ->
  forall s r, init_rules f s = Some r -> subject_matrix conj A Ai s = rhs_matrix A r.
Proof. move=> e hb hd hr; exact: (rules_sound_real e hb hd (fun _ => hr) hr). Qed.
Print Assumptions C07_rules_sound_real.

Example C07_rules_case : minus1 *m minus1 = onemx _ /\ init_rules minus1_flags self_self = Some ROne.
Proof. by split=> //; apply: mx_list_eq; vm_compute. Qed.

(** Flags of composites: the product ... *)
Theorem C07_composition_flags_sound (R : cring) (conj : conjugation R) (n : nat) (ops : operands R n) (d : fdict) :
  true_operands conj ops -> merge_flags_composition (List.map fst ops) = Ok d ->
  forall k, dtrue d k = true -> holds conj (mxprod ops) k.
Proof. exact: composition_flags_sound. Qed.
Print Assumptions C07_composition_flags_sound.

(** ... the sum, except hermitian for complex operands ... *)
Theorem C07_addition_flags_sound_partial (R : cring) (conj : conjugation R) (n : nat) (ops : operands R n) :
  true_operands conj ops ->
  forall k, k <> Hermitian \/ (forall f A, In (f, A) ops -> holds conj A Real) ->
  dtrue (merge_flags_addition (List.map fst ops)) k = true -> holds conj (mxsum ops) k.
Proof. exact: addition_flags_sound_partial. Qed.
Print Assumptions C07_addition_flags_sound_partial.

(** ... the block diagonal, for blocks of any sizes. *)
Theorem C07_block_diagonal_flags_sound (R : cring) (conj : conjugation R) (ops : blocks R) :
  true_blocks conj ops ->
  forall k, dtrue (merge_flags_block_diagonal (List.map fst ops)) k = true -> holds conj (projT2 (bdiag ops)) k.
Proof. exact: block_diagonal_flags_sound. Qed.
Print Assumptions C07_block_diagonal_flags_sound.

Example C07_composite_case : exists f : flags, true_flags zconj proj0 f /\ f Symmetric = true /\ f Hermitian = true /\
  true_operands zconj [(f, proj0); (f, proj0)] /\
  true_blocks zconj [(f, existT (fun n => mx Zring n n) 2%nat proj0)] /\
  dtrue (merge_flags_addition [f; f]) Symmetric = true.
Proof.
case: C07_flags_sound_case => f [e [h0 [hd [hr [hi hh]]]]]; exists f.
have hf : true_flags zconj proj0 f by apply: (flags_sound_partial e h0 hd).
have hs : f Symmetric = true by apply: (declared_kept (k := Symmetric) e).
split=> //; split=> //; split=> //.
split; first by move=> g A /= [[<- <-]|[[<- <-]|//]].
split; first by move=> g B /= [[<- <-]|//].
by rewrite /dtrue /= hs.
Qed.

(** A * A is the square of A, provided that the flags are true (which they are not always, see below). *)
Theorem C07_square_sound_partial (R : cring) (conj : conjugation R) (n : nat) (A : mx R n n) (f : flags) :
  true_flags conj A f -> square_matrix A (mul_self f) = A *m A.
Proof. exact: square_sound. Qed.
Print Assumptions C07_square_sound_partial.

(** A product, a sum, a block diagonal of any maps is marked linear only if it is. *)
Theorem C07_composition_linear (R : cring) (V : lmod R) (ops : map_operands V) (d : fdict) :
  true_linear ops -> merge_flags_composition (List.map fst ops) = Ok d -> dtrue d Linear = true ->
  linear_map (map_prod ops).
Proof. exact: composition_linear_sound. Qed.
Print Assumptions C07_composition_linear.

Theorem C07_addition_linear (R : cring) (V : lmod R) (ops : map_operands V) :
  true_linear ops -> dtrue (merge_flags_addition (List.map fst ops)) Linear = true -> linear_map (map_sum ops).
Proof. exact: addition_linear_sound. Qed.
Print Assumptions C07_addition_linear.

Theorem C07_block_diagonal_linear (R : cring) (V : lmod R) (ops : map_operands V) :
  true_linear ops -> dtrue (merge_flags_block_diagonal (List.map fst ops)) Linear = true ->
  forall a xs ys, length xs = length ys -> map_diag ops (axpy a xs ys) = axpy a (map_diag ops xs) (map_diag ops ys).
Proof. exact: block_diagonal_linear_sound. Qed.
Print Assumptions C07_block_diagonal_linear.

(** A product, a sum is marked square only if it has as many outputs as inputs. *)
Theorem C07_composition_square (ops : sized) (d : fdict) (nin nout : nat) :
  true_square ops -> merge_flags_composition (List.map fst ops) = Ok d -> dtrue d Square = true ->
  fit ops nin nout -> nin = nout.
Proof. exact: composition_square_sound. Qed.
Print Assumptions C07_composition_square.

Theorem C07_addition_square (ops : sized) (nin nout : nat) :
  true_square ops -> dtrue (merge_flags_addition (List.map fst ops)) Square = true ->
  (forall f i o, In (f, (i, o)) ops -> i = nin /\ o = nout) -> nin = nout.
Proof. exact: addition_square_sound. Qed.
Print Assumptions C07_addition_square.

(** The integers as vectors *)
Definition Zmod : lmod Zring.
Proof. by refine {| vec := Z; v0 := 0%Z; vadd := Z.add; vscale := (Z.mul : Zring -> Z -> Z) |} => *; cbn -[Z.mul Z.add]; ring. Defined.
(** Two operands, the doubling (linear) and the square (not linear): the flags of the product. *)
Example C07_linear_case :
  let ops : map_operands Zmod := [(set_flag Linear default_flags, fun x : Zmod => (x + x)%Z); (default_flags, fun x : Zmod => (x * x)%Z)] in
  true_linear ops /\ dtrue (merge_flags_addition (List.map fst ops)) Linear = false /\
  dtrue (merge_flags_addition (List.map fst (firstn 1 ops))) Linear = true.
Proof.
split; last by [].
move=> f g [[<- <-] _|[[<- <-] //|[]]] a x y /=; ring.
Qed.

(** Findings.  A real operator declared orthogonal and symmetric is marked idempotent although it is not... *)
Theorem C07_idempotent_refuted : exists (n : nat) (A : mx Zring n n) (d : declared) (f : flags),
  init_flags noflags d false None = Ok f /\ true_flags zconj A noflags /\ true_declared zconj A d /\
  holds zconj A Real /\ f Idempotent = true /\ ~ holds zconj A Idempotent.
Proof. exact: idempotent_refuted. Qed.
Print Assumptions C07_idempotent_refuted.

(** ... so that A * A gives A, which is not the product. *)
Theorem C07_square_refuted : exists (n : nat) (A : mx Zring n n) (d : declared) (f : flags),
  init_flags noflags d false None = Ok f /\ true_declared zconj A d /\ holds zconj A Real /\
  square_matrix A (mul_self f) <> A *m A.
Proof. exact: square_refuted. Qed.
Print Assumptions C07_square_refuted.

(** A complex operator declared orthogonal and symmetric is marked unitary although it is not. *)
Theorem C07_unitary_refuted : exists (n : nat) (A : mx Gring n n) (d : declared) (f : flags),
  init_flags noflags d true None = Ok f /\ true_declared Gconj A d /\
  f Unitary = true /\ ~ holds Gconj A Unitary.
Proof. exact: unitary_refuted. Qed.
Print Assumptions C07_unitary_refuted.

(** The sum of complex symmetric operators is marked hermitian although it is not. *)
Theorem C07_addition_hermitian_refuted : exists (n : nat) (ops : operands Gring n),
  true_operands Gconj ops /\
  dtrue (merge_flags_addition (List.map fst ops)) Hermitian = true /\
  ~ holds Gconj (mxsum ops) Hermitian.
Proof. exact: addition_hermitian_refuted. Qed.
Print Assumptions C07_addition_hermitian_refuted.
