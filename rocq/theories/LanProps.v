(** C41: the Lanczos algorithm. *)
From Coq Require Import Reals Lra.
From Verif Require Import Base Algebra Ofield CgSpec PowModel LanModel LanSpec LanProofs RealField.
Local Open Scope nat_scope.

Section Theorems.
Context (K : ofield) (n : nat) (A : nat -> nat -> K) (sqrt : K -> K) (R : has_roots n sqrt) (v0 : nat -> K) (view : bool).
Notation steps k := (iterations n A sqrt k (snd (initialize n sqrt view v0))).
Notation v k := (fun j => vector (l_vectors (steps k) j)).

(** After k iterations, A V = V T + beta v e_k, as long as the rows of the array vectors have been numbers. *)
Theorem C41_relation : forall k, defined (steps k) k -> forall i j, i < n -> j < k ->
  times n A (v k j) i = radd (sum k (fun a => rmul (v k a i) (matrix_T (steps k) a j))) (if Nat.eqb (S j) k then rmul (number (l_beta (steps k) j)) (v k k i) else r0).
Proof.
  intros k D i j Hi Hj. change (steps k) with (at_ n A sqrt v0 view k); cbv beta. assert (H : V n A sqrt v0 view j <> None) by (rewrite <- (stable_v n A sqrt v0 view k j) by lia; apply D; exact Hj).
  rewrite !(stable_v n A sqrt v0 view k) by lia. pose proof (relation_T n A sqrt R v0 view k j i H Hj Hi) as E. unfold vv in E. etransitivity; [exact E|]. clear E.
  f_equal.
  - apply sum_ext. intros a Ha. rewrite (stable_v n A sqrt v0 view k) by lia. f_equal. unfold T, matrix_T, tridiagonal, aa, bb. destruct (stable_c n A sqrt v0 view k a Ha) as [-> ->]. destruct (stable_c n A sqrt v0 view k j Hj) as [_ ->]. reflexivity.
  - destruct (stable_c n A sqrt v0 view k j Hj) as [_ ->]. reflexivity.
Qed.

Context (Sy : symmetric n A).
(** For a symmetric matrix, the vectors are orthonormal. *)
Theorem C41_orthonormal : forall k m, m <= S k -> defined (steps k) m -> orthonormal n m (v k).
Proof.
  intros k m Hm D. assert (H : forall j, j < m -> V n A sqrt v0 view j <> None) by (intros j Hj; rewrite <- (stable_v n A sqrt v0 view k j) by lia; apply D; exact Hj).
  intros i j Hi Hj. change (steps k) with (at_ n A sqrt v0 view k); cbv beta. rewrite !(stable_v n A sqrt v0 view k) by lia. exact (orthonormal_v n A sqrt R v0 view Sy m H i j Hi Hj).
Qed.

Context (eig : nat -> (nat -> nat -> K) -> (nat -> K) * (nat -> nat -> K)) (k : nat) (EO : decomposes eig k (matrix_T (steps k))).
(** It succeeds if the starting vector is not zero and none of the beta, the last excepted, is zero. *)
Theorem C41_succeeds : 0 < k -> ~ null n v0 -> (forall j, S j < k -> l_beta (steps k) j <> Some r0) -> exists wv, run n A sqrt eig k None view v0 = Ok wv.
Proof.
  intros Hk N B. destruct (finalize_ok n A sqrt R v0 view Sy eig k EO Hk) as (wv & F & _); [apply (defined_all n A sqrt R v0 view k N B)|]. exists wv. exact F.
Qed.
(** The operator that is returned has the same coefficients as A in the basis of the Lanczos vectors, and they are those of T; its eigenvectors are orthonormal. *)
Theorem C41_result : forall wv, run n A sqrt eig k None view v0 = Ok wv ->
  (forall i j, i < k -> j < k -> inner n (v k i) (times n (approximation k wv) (v k j)) = matrix_T (steps k) i j /\ inner n (v k i) (times n A (v k j)) = matrix_T (steps k) i j) /\
  (forall l m, l < k -> m < k -> sum n (fun i => rmul (snd wv i l) (snd wv i m)) = if Nat.eqb l m then r1 else r0).
Proof.
  intros wv F. destruct (finalize_defined n A sqrt v0 view eig k wv F) as [Hk H]. split.
  - intros i j Hi Hj. change (steps k) with (at_ n A sqrt v0 view k); cbv beta. rewrite !(stable_v n A sqrt v0 view k) by lia. destruct (entries n A sqrt R v0 view Sy eig k EO wv i j F Hi Hj) as [E1 E2].
    assert (matrix_T (at_ n A sqrt v0 view k) i j = T n A sqrt v0 view i j) as ->; [|split; [exact E1|exact E2]].
    unfold T, matrix_T, tridiagonal, aa, bb. destruct (stable_c n A sqrt v0 view k i Hi) as [-> ->]. destruct (stable_c n A sqrt v0 view k j Hj) as [_ ->]. reflexivity.
  - destruct (finalize_ok n A sqrt R v0 view Sy eig k EO Hk H) as (wv' & F' & _ & E). unfold run in F. change (iterations n A sqrt k _) with (at_ n A sqrt v0 view k) in F. rewrite F in F'. injection F' as <-. exact E.
Qed.
(** The argument of the method run is the largest number of iterations: there are not more than maxiter. *)
Theorem C41_steps : forall m, run n A sqrt eig k (Some 0) view v0 = run n A sqrt eig k None view v0 /\ (k <= m -> run n A sqrt eig k (Some m) view v0 = run n A sqrt eig k None view v0).
Proof. intros m. split; [reflexivity|]. intros H. unfold run. destruct m as [|m]; [reflexivity|]. rewrite Nat.min_r by exact H. reflexivity. Qed.
(** It acts like A on the Krylov space: R^m v0 = A^m v0 for m < k.  With n iterations, it is A. *)
Theorem C41_krylov : forall wv m i, run n A sqrt eig k None view v0 = Ok wv -> m < k -> i < n -> iterate n (approximation k wv) m v0 i = iterate n A m v0 i.
Proof. intros wv m i F. exact (krylov_v0 n A sqrt R v0 view Sy eig k EO wv m i F). Qed.
Theorem C41_exact : forall wv i j, k = n -> run n A sqrt eig k None view v0 = Ok wv -> i < n -> j < n -> approximation k wv i j = A i j.
Proof. intros wv i j E F. exact (exact_ok n A sqrt R v0 view Sy eig k EO wv i j E F). Qed.
End Theorems.

(** An example in the real numbers: 3 4 / 4 -3, whose eigenvalues are 5 and -5, from the first unit vector. *)
Definition A_ex (i j : nat) : Rf := match i, j with 0, 0 => 3%R | 0, 1 => 4%R | 1, 0 => 4%R | 1, 1 => (-3)%R | _, _ => 0%R end.
Definition v_ex (i : nat) : Rf := match i with 0 => 1%R | _ => 0%R end.
Definition z_ex (i j : nat) : Rf := match i, j with 0, 0 => (2 / R_sqrt.sqrt 5)%R | 1, 0 => (1 / R_sqrt.sqrt 5)%R | 0, 1 => (1 / R_sqrt.sqrt 5)%R | 1, 1 => (-2 / R_sqrt.sqrt 5)%R | _, _ => 0%R end.
Definition eig_ex (k : nat) (T : nat -> nat -> Rf) : (nat -> Rf) * (nat -> nat -> Rf) := (fun j => match j with 0 => 5%R | _ => (-5)%R end, z_ex).
Lemma real_roots n : has_roots (K := Rf) n R_sqrt.sqrt.
Proof.
  intros x. apply sqrt_sqrt. unfold inner. induction n as [|n IH]; cbn [sum]; [apply Rle_refl|]. change (0 <= sum n (fun i => x i * x i : Rf)%cr + x n * x n)%R. apply Rplus_le_le_0_compat; [exact IH|]. apply Rle_0_sqr.
Qed.
Definition root : Rf -> Rf := R_sqrt.sqrt.
Lemma sqrt_16 : R_sqrt.sqrt 16 = 4%R. Proof. replace 16%R with (4 * 4)%R by lra. apply sqrt_square. lra. Qed.
Lemma sqrt_5 : (R_sqrt.sqrt 5 * R_sqrt.sqrt 5 = 5)%R. Proof. apply sqrt_sqrt. lra. Qed.
Lemma sqrt_5' : (R_sqrt.sqrt 5 <> 0)%R. Proof. intros E. pose proof sqrt_5 as Q. rewrite E in Q. lra. Qed.
Lemma example_norm : norm 2 root v_ex = 1%R.
Proof. unfold norm, CgModel.dot, root. cbn -[IZR]. replace (0 + 1 * 1 + 0 * 0)%R with 1%R by ring. apply sqrt_1. Qed.
Lemma example_coefficients : V 2 A_ex root v_ex true 0 <> None /\ V 2 A_ex root v_ex true 1 <> None /\ aa 2 A_ex root v_ex true 0 = 3%R /\ bb 2 A_ex root v_ex true 0 = 4%R /\ aa 2 A_ex root v_ex true 1 = (-3)%R.
Proof.
  assert (D0 : V 2 A_ex root v_ex true 0 = Some (fun i => div (v_ex i) (1%R : Rf))).
  { unfold V. cbn [at_ iterations]. unfold initialize. cbn [snd l_vectors]. unfold set. cbn [Nat.eqb]. unfold divided. rewrite example_norm. destruct (eqb (1%R : Rf) r0) eqn:E; [|reflexivity]. apply Reqb_ok in E. change (1 = 0)%R in E. lra. }
  assert (N0 : V 2 A_ex root v_ex true 0 <> None) by congruence. pose proof (step_ok 2 A_ex root v_ex true 0 N0) as (Ha & Hb & _ & Hv).
  assert (E0 : forall i, vv 2 A_ex root v_ex true 0 i = v_ex i). { intros i. unfold vv. rewrite D0. cbn -[IZR]. unfold Rdiv. rewrite RMicromega.Rinv_1. reflexivity. }
  assert (A0 : aa 2 A_ex root v_ex true 0 = 3%R). { rewrite Ha. unfold CgModel.dot, CgModel.apply. cbn [sum prev]. rewrite !E0. cbn -[IZR]. ring. }
  assert (B0 : bb 2 A_ex root v_ex true 0 = 4%R). { rewrite Hb, A0. unfold CgModel.dot, CgModel.apply. cbn [sum prev]. rewrite !E0. cbn -[IZR]. unfold root. transitivity (R_sqrt.sqrt 16); [f_equal; ring|exact sqrt_16]. }
  assert (Z0 : bb 2 A_ex root v_ex true 0 <> r0). { rewrite B0. change (4 <> 0)%R. lra. }
  destruct (Hv Z0) as [N1 Ev]. repeat split; auto.
  assert (E1 : vv 2 A_ex root v_ex true 1 0 = 0%R /\ vv 2 A_ex root v_ex true 1 1 = 1%R).
  { split; rewrite Ev, A0, B0; unfold CgModel.apply; cbn [sum prev]; rewrite !E0; cbn -[IZR]; field. }
  destruct E1 as [E10 E11]. pose proof (step_ok 2 A_ex root v_ex true 1 N1) as (Ha1 & _). rewrite Ha1. unfold CgModel.dot, CgModel.apply. cbn [sum prev]. rewrite !E0, !E10, !E11, B0. cbn -[IZR]. ring.
Qed.
Lemma example_T : let s := iterations 2 A_ex root 2 (snd (initialize 2 root true v_ex)) in matrix_T s 0 0 = 3%R /\ matrix_T s 0 1 = 4%R /\ matrix_T s 1 0 = 4%R /\ matrix_T s 1 1 = (-3)%R.
Proof.
  destruct example_coefficients as (_ & _ & A0 & B0 & A1). unfold matrix_T, tridiagonal. cbn [Nat.eqb]. change (iterations 2 A_ex root 2 _) with (at_ 2 A_ex root v_ex true 2). cbv zeta.
  destruct (stable_c 2 A_ex root v_ex true 2 0 ltac:(lia)) as [-> ->]. destruct (stable_c 2 A_ex root v_ex true 2 1 ltac:(lia)) as [-> _]. auto.
Qed.
Lemma example_decomposes : decomposes eig_ex 2 (matrix_T (iterations 2 A_ex root 2 (snd (initialize 2 root true v_ex)))).
Proof.
  destruct example_T as (E00 & E01 & E10 & E11). pose proof sqrt_5 as S5. pose proof sqrt_5' as N5.
  assert (I5 : (/ R_sqrt.sqrt 5 * / R_sqrt.sqrt 5 = / 5)%R) by (rewrite <- Rinv_mult, S5; reflexivity).
  unfold decomposes, eig_ex. split.
  - intros i j Hi Hj. assert (i = 0 \/ i = 1) as [-> | ->] by lia; assert (j = 0 \/ j = 1) as [-> | ->] by lia; rewrite ?E00, ?E01, ?E10, ?E11; cbn -[IZR]; unfold Rdiv;
      remember (/ R_sqrt.sqrt 5)%R as q eqn:Eq; clear Eq; nra.
  - intros i j Hi Hj. assert (i = 0 \/ i = 1) as [-> | ->] by lia; assert (j = 0 \/ j = 1) as [-> | ->] by lia; cbn -[IZR]; unfold Rdiv;
      remember (/ R_sqrt.sqrt 5)%R as q eqn:Eq; clear Eq; nra.
Qed.
Lemma example_symmetric : symmetric 2 A_ex.
Proof. intros i j Hi Hj. assert (i = 0 \/ i = 1) as [-> | ->] by lia; assert (j = 0 \/ j = 1) as [-> | ->] by lia; reflexivity. Qed.
Example C41_example : exists wv, run 2 A_ex root eig_ex 2 None true v_ex = Ok wv /\ forall i j, i < 2 -> j < 2 -> approximation 2 wv i j = A_ex i j.
Proof.
  destruct (C41_succeeds Rf 2 A_ex root (real_roots 2) v_ex true example_symmetric eig_ex 2 example_decomposes) as [wv F].
  - lia.
  - intros N. specialize (N 0 ltac:(lia)). change (1 = 0)%R in N. lra.
  - intros j Hj. assert (j = 0) as -> by lia. destruct example_coefficients as (N0 & _ & _ & B0 & _). change (iterations 2 A_ex root 2 _) with (at_ 2 A_ex root v_ex true 2).
    destruct (stable_c 2 A_ex root v_ex true 2 0 ltac:(lia)) as [_ ->]. destruct (coefficients_some 2 A_ex root v_ex true 0 N0) as [_ ->]. rewrite B0. intros E. injection E as E. change (4 = 0)%R in E. lra.
  - exists wv. split; [exact F|]. intros i j. exact (C41_exact Rf 2 A_ex root (real_roots 2) v_ex true example_symmetric eig_ex 2 example_decomposes wv i j eq_refl F).
Qed.
Example C41_orthonormal_example : orthonormal 2 2 (fun j => vector (l_vectors (iterations 2 A_ex root 2 (snd (initialize 2 root true v_ex))) j)).
Proof.
  apply (C41_orthonormal Rf 2 A_ex root (real_roots 2) v_ex true example_symmetric 2 2); [lia|]. intros j Hj. change (iterations 2 A_ex root 2 _) with (at_ 2 A_ex root v_ex true 2).
  rewrite stable_v by lia. destruct example_coefficients as (N0 & N1 & _). assert (j = 0 \/ j = 1) as [-> | ->] by lia; assumption.
Qed.

(** False claims.  A maximum number of iterations larger than the dimension, such as the default one, always fails: beta vanishes and NaNs appear, the algorithm does not stop. *)
Theorem C41_breakdown_refuted : forall (K : ofield) n (A : nat -> nat -> K) sqrt v0 view eig k, has_roots n sqrt -> symmetric n A -> (r1 : K) <> r0 -> n < k -> exists e, run n A sqrt eig k None view v0 = Raise e.
Proof.
  intros K n A sqrt v0 view eig k R Sy N Hk. destruct (run n A sqrt eig k None view v0) as [wv|e] eqn:F; [|exists e; reflexivity].
  exfalso. exact (breakdown n A sqrt R v0 view Sy eig k wv N Hk F).
Qed.
Definition q (z : Z) (p : positive) : Qf := Qcanon.Q2Qc (QArith_base.Qmake z p).
(** The user's starting vector is overwritten, if it is contiguous. *)
Theorem C41_input_refuted : exists (v : nat -> Qf), fst (initialize 2 (fun _ => q 2 1) true v) <> Some v.
Proof. exists (fun i => q 1 1). intros E. vm_compute in E. injection E as E. apply (f_equal (fun f => Qcanon.this (f 0))) in E. vm_compute in E. discriminate. Qed.
(** The documented maxiter=None is refused. *)
Theorem C41_none_refuted : create None = Raise TypeError.
Proof. reflexivity. Qed.
(** Stopping earlier, with run(1) and maxiter=2, does not give the result of one iteration: T couples the first vector with the next one. *)
Definition A_q (i j : nat) : Qf := match i, j with 0, 0 => q (-7) 1 | 0, 1 | 1, 0 => q 12 1 | 1, 1 => q 5 1 | _, _ => q 0 1 end.
Definition v_q (i : nat) : Qf := match i with 0 => q 1 1 | _ => q 0 1 end.
Definition sqrt_q (x : Qf) : Qf := if eqb x (q 144 1) then q 12 1 else x.
Definition eig_q (k : nat) (T : nat -> nat -> Qf) : (nat -> Qf) * (nat -> nat -> Qf) :=
  match k with
  | 2 => (fun j => match j with 0 => q 9 1 | _ => q (-16) 1 end, fun i j => match i, j with 0, 0 => q 3 5 | 1, 1 => q (-3) 5 | _, _ => q 4 5 end)
  | _ => (fun _ => T 0 0, fun _ _ => q 1 1)
  end.
Ltac qc := apply Qcanon.Qc_is_canon; vm_compute; reflexivity.
Theorem C41_steps_refuted : sqrt_q (q 1 1) = q 1 1 /\ sqrt_q (q 144 1) = q 12 1 /\
  decomposes eig_q 1 (matrix_T (iterations 2 A_q sqrt_q 1 (snd (initialize 2 sqrt_q true v_q)))) /\
  decomposes eig_q 2 (matrix_T (iterations 2 A_q sqrt_q 1 (snd (initialize 2 sqrt_q true v_q)))) /\
  exists wv wv', run 2 A_q sqrt_q eig_q 2 (Some 1) true v_q = Ok wv /\ run 2 A_q sqrt_q eig_q 1 None true v_q = Ok wv' /\
    approximation 2 wv 0 1 = q 12 1 /\ approximation 1 wv' 0 1 = q 0 1.
Proof.
  split; [qc|]. split; [qc|]. split; [|split].
  - split; intros i j Hi Hj; assert (i = 0) as -> by lia; assert (j = 0) as -> by lia; qc.
  - split; intros i j Hi Hj; assert (i = 0 \/ i = 1) as [-> | ->] by lia; assert (j = 0 \/ j = 1) as [-> | ->] by lia; qc.
  - eexists. eexists. split; [reflexivity|]. split; [reflexivity|]. split; qc.
Qed.

Print Assumptions C41_relation.
Print Assumptions C41_orthonormal.
Print Assumptions C41_succeeds.
Print Assumptions C41_result.
Print Assumptions C41_steps.
Print Assumptions C41_krylov.
Print Assumptions C41_exact.
Print Assumptions C41_breakdown_refuted.
Print Assumptions C41_input_refuted.
Print Assumptions C41_none_refuted.
Print Assumptions C41_steps_refuted.
Print Assumptions C41_example.
