(** The complex numbers have a conjugation, the inverses of the positive integers and a root of unity of every order, so
    that everything proved with Dft.v holds for them.  This file alone uses the axioms of the real numbers of Coq's
    standard library. *)
From Coq Require Import Reals Lra.
From Verif Require Import Base Algebra Dft.

Local Open Scope R_scope.
Definition CC : Type := (R * R)%type.
Definition cadd (a b : CC) : CC := (fst a + fst b, snd a + snd b).
Definition cmul (a b : CC) : CC := (fst a * fst b - snd a * snd b, fst a * snd b + snd a * fst b).
Definition copp (a : CC) : CC := (- fst a, - snd a).
Definition csub (a b : CC) : CC := cadd a (copp b).
Lemma cth : ring_theory (0, 0) (1, 0) cadd cmul csub copp eq.
Proof.
  constructor; intros; unfold csub, cadd, cmul, copp; repeat match goal with p : (R * R)%type |- _ => destruct p end; cbn [fst snd]; f_equal; ring.
Qed.
Definition CCring : cring := {| car := CC; r0 := (0, 0); r1 := (1, 0); radd := cadd; rmul := cmul; rsub := csub; ropp := copp; rth := cth |}.
Definition cconj (a : CC) : CC := (fst a, - snd a).
Lemma crnat n : @rnat CCring n = (INR n, 0).
Proof. induction n; [reflexivity|]. cbn [rnat]. rewrite IHn, S_INR. cbn. unfold cadd. cbn [fst snd]. f_equal; ring. Qed.
Definition Cf : cfield.
Proof.
  refine {| cf_ring := CCring; conj := cconj : CCring -> CCring; ninv := (fun n => (/ INR n, 0)) : nat -> CCring |}.
  - intros [] []. cbn. unfold cconj, cadd. cbn. f_equal. ring.
  - intros [] []. cbn. unfold cconj, cmul. cbn. f_equal; ring.
  - intros []. unfold cconj. cbn. f_equal. ring.
  - cbn. unfold cconj. cbn. f_equal; ring.
  - intros n H. rewrite crnat. cbn. unfold cmul. cbn [fst snd]. f_equal; [|ring]. rewrite Rmult_0_l, Rminus_0_r. apply Rinv_l. apply not_0_INR, H.
Defined.
(** exp(-2 i pi / n) *)
Definition cis (t : R) : Cf := (cos t, - sin t).
Definition cw (n : nat) : Cf := cis (2 * PI / INR n).
Lemma cis_add s t : rmul (cis s) (cis t) = cis (s + t).
Proof. cbn. unfold cmul, cis. cbn [fst snd]. rewrite cos_plus, sin_plus. f_equal; ring. Qed.
Lemma cis_0 : cis 0 = r1.
Proof. unfold cis. rewrite cos_0, sin_0. cbn. f_equal. ring. Qed.
Lemma cis_pow t n : rpow (cis t) n = cis (INR n * t).
Proof.
  induction n; [cbn [rpow]; rewrite Rmult_0_l, cis_0; reflexivity|]. cbn [rpow]. rewrite IHn, cis_add. f_equal. rewrite S_INR. ring.
Qed.
Lemma cw_n n : (0 < n)%nat -> rpow (cw n) n = r1.
Proof.
  intros H. unfold cw. rewrite cis_pow. replace (INR n * (2 * PI / INR n)) with (2 * PI). 2:{ field. apply not_0_INR. lia. }
  unfold cis. rewrite cos_2PI, sin_2PI. cbn. f_equal. ring.
Qed.
Lemma cw_conj n : rmul (conj (cw n)) (cw n) = r1.
Proof.
  unfold cw, cis. cbn. unfold cmul, cconj. cbn [fst snd]. set (t := 2 * PI / INR n). pose proof (sin2_cos2 t) as E. unfold Rsqr in E. f_equal; [|ring]. rewrite <- E. ring.
Qed.
Lemma cw_neq n j : (0 < j < n)%nat -> rpow (cw n) j <> r1.
Proof.
  intros H E. unfold cw in E. rewrite cis_pow in E. unfold cis in E. injection E as E _.
  assert (0 < INR n) as Pn by (apply (lt_INR 0); lia). assert (0 < INR j) as Pj by (apply (lt_INR 0); lia). assert (INR j < INR n) as Pjn by (apply lt_INR; lia).
  set (t := INR j * (PI / INR n)). replace (INR j * (2 * PI / INR n)) with (2 * t) in E by (unfold t; field; lra). rewrite cos_2a_sin in E.
  assert (0 < t) as T0. { unfold t. apply Rmult_lt_0_compat; auto. apply Rdiv_lt_0_compat; auto. apply PI_RGT_0. }
  assert (t < PI) as T1.
  { unfold t. apply (Rmult_lt_reg_r (INR n)); auto. replace (INR j * (PI / INR n) * INR n) with (INR j * PI) by (field; lra). rewrite (Rmult_comm PI). apply Rmult_lt_compat_r; auto. apply PI_RGT_0. }
  pose proof (sin_gt_0 t T0 T1) as S. assert (sin t * sin t = 0) as Z by lra. apply Rmult_integral in Z. lra.
Qed.
Lemma c_integral (a b : Cf) : rmul a b = r0 -> a <> r0 -> b = r0.
Proof.
  destruct a as [x y], b as [u v]. cbn. unfold cmul. cbn [fst snd]. intros E NE. injection E as E1 E2.
  assert (0 < x * x + y * y) as P.
  { destruct (Req_dec x 0) as [->|Nx]; [|nra]. destruct (Req_dec y 0) as [->|Ny]; [congruence|nra]. }
  assert ((x * x + y * y) * u = 0) as A by (replace ((x * x + y * y) * u) with (x * (x * u - y * v) + y * (x * v + y * u)) by ring; rewrite E1, E2; ring).
  assert ((x * x + y * y) * v = 0) as B by (replace ((x * x + y * y) * v) with (x * (x * v + y * u) - y * (x * u - y * v)) by ring; rewrite E1, E2; ring).
  apply Rmult_integral in A. apply Rmult_integral in B. f_equal; lra.
Qed.
Section Geometric.
Context {K : cring}.
Add Ring KringG : (rth K).
Lemma geometric (a : K) n : rmul (rsub a r1) (sum n (fun k => rpow a k)) = rsub (rpow a n) r1.
Proof. induction n; cbn [sum rpow]; [ring|]. transitivity (radd (rmul (rsub a r1) (sum n (fun k => rpow a k))) (rmul (rsub a r1) (rpow a n))); [ring|]. rewrite IHn. ring. Qed.
Lemma sub_0 (a b : K) : rsub a b = r0 -> a = b.
Proof. intros E. transitivity (radd (rsub a b) b); [ring|]. rewrite E. ring. Qed.
End Geometric.
Theorem complex_root n : (0 < n)%nat -> root (K := Cf) n (cw n).
Proof.
  intros H. split; auto. split; [apply cw_n; auto|]. split; [apply cw_conj|]. intros j Hj.
  rewrite (sum_ext _ _ (fun k => rpow (rpow (cw n) j) k)) by (intros; apply rpow_mul).
  apply (c_integral (rsub (rpow (cw n) j) r1)).
  - rewrite geometric. rewrite <- rpow_mul, Nat.mul_comm, rpow_mul, cw_n, rpow_1 by auto. cbn. unfold csub, cadd, copp. cbn. f_equal; ring.
  - intros E. apply sub_0 in E. apply (cw_neq n j); auto.
Qed.
Print Assumptions complex_root.
