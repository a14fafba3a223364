(** The ordered field of the real numbers, with the axioms of the standard library; only used to show that the hypotheses of some theorems can be met. *)
From Coq Require Import Reals Lra.
From Verif Require Import Base Algebra Ofield.

Definition Rring : cring := {| car := R; r0 := 0%R; r1 := 1%R; radd := Rplus; rmul := Rmult; rsub := Rminus; ropp := Ropp; rth := RTheory |}.
Definition Reqb (x y : R) : bool := if Req_EM_T x y then true else false.
Definition Rltb (x y : R) : bool := if Rlt_dec x y then true else false.
Lemma Reqb_ok x y : Reqb x y = true <-> x = y.
Proof. unfold Reqb. destruct (Req_EM_T x y); split; congruence. Qed.
Lemma Rltb_ok x y : Rltb x y = true <-> (x < y)%R.
Proof. unfold Rltb. destruct (Rlt_dec x y); split; congruence || auto. Qed.
Lemma Rltb_irrefl x : Rltb x x = false.
Proof. destruct (Rltb x x) eqn:E; [|reflexivity]. apply Rltb_ok in E. lra. Qed.
Lemma Rltb_trans x y z : Rltb x y = true -> Rltb y z = true -> Rltb x z = true.
Proof. rewrite !Rltb_ok. lra. Qed.
Lemma Rltb_total x y : x = y \/ Rltb x y = true \/ Rltb y x = true.
Proof. rewrite !Rltb_ok. lra. Qed.
Lemma Rltb_add x y z : Rltb x y = true -> Rltb (x + z)%R (y + z)%R = true.
Proof. rewrite !Rltb_ok. lra. Qed.
Lemma Rltb_mul x y : Rltb 0%R x = true -> Rltb 0%R y = true -> Rltb 0%R (x * y)%R = true.
Proof. rewrite !Rltb_ok. apply Rmult_lt_0_compat. Qed.
Definition Rf : ofield := {| ofc := Rring; inv := Rinv : Rring -> Rring; eqb := Reqb : Rring -> Rring -> bool; ltb := Rltb : Rring -> Rring -> bool; inv_ok := Rinv_r : forall a : Rring, a <> r0 -> rmul a (Rinv a : Rring) = r1;
  eqb_ok := Reqb_ok; lt_irrefl := Rltb_irrefl; lt_trans := Rltb_trans; lt_total := Rltb_total; lt_add := Rltb_add; lt_mul := Rltb_mul |}.
