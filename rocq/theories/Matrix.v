(** Matrices over a commutative ring, given by the list of their elements, so that two matrices with the same elements are equal.  Nothing here models a particular file. *)
From Coq Require Import Eqdep_dec.
From Verif Require Import Base Algebra.
Local Open Scope nat_scope.

(** The conjugation of the scalars. *)
Record conjugation (K : cring) := {
  cj :> K -> K;
  cj_add : forall a b, cj (radd a b) = radd (cj a) (cj b);
  cj_mul : forall a b, cj (rmul a b) = rmul (cj a) (cj b);
  cj_one : cj r1 = r1
}.

Record mx (K : cring) (m n : nat) := MX { mx_list : list K; mx_size : Nat.eqb (length mx_list) (m * n) = true }.
Arguments mx_list {K m n}. Arguments MX {K m n}.
Lemma tabulate_size {A} (l : list A) k : length l = k -> Nat.eqb (length l) k = true.
Proof. intros ->. apply Nat.eqb_refl. Qed.

Section Matrix.
Context {K : cring}.
Add Ring KringMx : (rth K).
(** The element (i, j) *)
Definition el {m n} (A : mx K m n) (i j : nat) : K := nth (i * n + j) (mx_list A) r0.
(** The matrix of the elements f i j *)
Definition build (m n : nat) (f : nat -> nat -> K) : mx K m n.
Proof.
  refine (MX (map (fun k => f (k / n) (k mod n)) (seq 0 (m * n))) _). apply tabulate_size. rewrite map_length, seq_length. reflexivity.
Defined.
Definition mulmx {m n p} (A : mx K m n) (B : mx K n p) : mx K m p := build m p (fun i j => sum n (fun k => rmul (el A i k) (el B k j))).
Definition addmx {m n} (A B : mx K m n) : mx K m n := build m n (fun i j => radd (el A i j) (el B i j)).
Definition trmx {m n} (A : mx K m n) : mx K n m := build n m (fun i j => el A j i).
Definition scalarmx n (c : K) : mx K n n := build n n (fun i j => if Nat.eqb i j then c else r0).
Definition onemx n : mx K n n := scalarmx n r1.
Definition zeromx {m n} : mx K m n := build m n (fun _ _ => r0).
Definition mapmx {m n} (f : K -> K) (A : mx K m n) : mx K m n := build m n (fun i j => f (el A i j)).
(** The block diagonal matrix *)
Definition diagmx {m n} (A : mx K m m) (B : mx K n n) : mx K (m + n) (m + n) :=
  build (m + n) (m + n) (fun i j => if i <? m then (if j <? m then el A i j else r0) else if j <? m then r0 else el B (i - m) (j - m)).

Lemma el_build m n f i j : i < m -> j < n -> el (build m n f) i j = f i j.
Proof.
  intros Hi Hj. unfold el, build. cbn [mx_list]. rewrite (nth_indep _ r0 (f (0 / n) (0 mod n))) by (rewrite map_length, seq_length; nia).
  rewrite (map_nth (fun k => f (k / n) (k mod n))). rewrite seq_nth by nia.
  rewrite Nat.add_0_l. replace ((i * n + j) / n) with i by (rewrite Nat.div_add_l, Nat.div_small; lia).
  replace ((i * n + j) mod n) with j by (rewrite (Nat.add_comm (i * n)), Nat.mod_add, Nat.mod_small; lia). reflexivity.
Qed.
Lemma mx_eq {m n} (A B : mx K m n) : (forall i j, i < m -> j < n -> el A i j = el B i j) -> A = B.
Proof.
  destruct A as [a Ha], B as [b Hb]. unfold el. cbn [mx_list]. intros E.
  assert (a = b) as ->.
  { pose proof (proj1 (Nat.eqb_eq _ _) Ha) as La. pose proof (proj1 (Nat.eqb_eq _ _) Hb) as Lb.
    apply (nth_ext a b r0 r0); [congruence|]. intros k Hk. rewrite La in Hk.
    assert (n <> 0) by nia. specialize (E (k / n) (k mod n)). rewrite (Nat.mul_comm (k / n) n), <- Nat.div_mod in E by lia.
    apply E; [apply Nat.div_lt_upper_bound; nia|apply Nat.mod_upper_bound; lia]. }
  f_equal. apply UIP_dec. decide equality.
Qed.
Lemma el_ext {m n} (A B : mx K m n) i j : A = B -> el A i j = el B i j. Proof. now intros ->. Qed.

Lemma trmxK {m n} (A : mx K m n) : trmx (trmx A) = A.
Proof. apply mx_eq. intros. unfold trmx. rewrite !el_build by assumption. reflexivity. Qed.
Lemma trmx_scalar n c : trmx (scalarmx n c) = scalarmx n c.
Proof. apply mx_eq. intros. unfold trmx, scalarmx. rewrite !el_build, Nat.eqb_sym by assumption. reflexivity. Qed.
Lemma trmx1 n : trmx (onemx n) = onemx n. Proof. apply trmx_scalar. Qed.
Lemma trmx0 m n : trmx (@zeromx m n) = zeromx.
Proof. apply mx_eq. intros. unfold trmx, zeromx. rewrite !el_build by assumption. reflexivity. Qed.
Lemma trmxD {m n} (A B : mx K m n) : trmx (addmx A B) = addmx (trmx A) (trmx B).
Proof. apply mx_eq. intros. unfold trmx, addmx. rewrite !el_build by assumption. reflexivity. Qed.
Lemma trmx_mul {m n p} (A : mx K m n) (B : mx K n p) : trmx (mulmx A B) = mulmx (trmx B) (trmx A).
Proof.
  apply mx_eq. intros. unfold trmx, mulmx. rewrite !el_build by assumption. apply sum_ext. intros. rewrite !el_build by assumption. apply rmul_comm.
Qed.
Lemma trmx_diag {m n} (A : mx K m m) (B : mx K n n) : trmx (diagmx A B) = diagmx (trmx A) (trmx B).
Proof.
  apply mx_eq. intros. unfold trmx, diagmx. rewrite !el_build by assumption.
  destruct (Nat.ltb_spec i m), (Nat.ltb_spec j m); rewrite ?el_build by lia; reflexivity.
Qed.
Lemma sum_pick n i (f : nat -> K) : i < n -> sum n (fun k => if Nat.eqb i k then f k else r0) = f i.
Proof.
  intros H. induction n as [|n IH]; [lia|]. cbn [sum]. destruct (Nat.eqb_spec i n) as [->|N].
  - rewrite sum_zero; [ring|]. intros k Hk. destruct (Nat.eqb_spec n k); [lia|reflexivity].
  - rewrite IH by lia. ring.
Qed.
Lemma mul1mx {m n} (A : mx K m n) : mulmx (onemx m) A = A.
Proof.
  apply mx_eq. intros i j Hi Hj. unfold mulmx, onemx, scalarmx. rewrite el_build by assumption.
  rewrite (sum_ext _ _ (fun k => if Nat.eqb i k then el A k j else r0)); [apply (sum_pick m i (fun k => el A k j)); exact Hi|].
  intros k Hk. rewrite el_build by assumption. destruct (Nat.eqb i k); ring.
Qed.
Lemma mulmx1 {m n} (A : mx K m n) : mulmx A (onemx n) = A.
Proof. rewrite <- (trmxK (mulmx A (onemx n))), trmx_mul, trmx1, mul1mx. apply trmxK. Qed.
Lemma mulmxA {m n p q} (A : mx K m n) (B : mx K n p) (C : mx K p q) : mulmx A (mulmx B C) = mulmx (mulmx A B) C.
Proof.
  apply mx_eq. intros i j Hi Hj. unfold mulmx at 1 3. rewrite !el_build by assumption.
  rewrite (sum_ext _ _ (fun k => sum p (fun l => rmul (rmul (el A i k) (el B k l)) (el C l j)))).
  2:{ intros k Hk. unfold mulmx. rewrite el_build by assumption. rewrite <- sum_mul_l. apply sum_ext. intros. ring. }
  rewrite sum_swap. apply sum_ext. intros l Hl. unfold mulmx. rewrite el_build by assumption. rewrite sum_mul_r. reflexivity.
Qed.

Section Conj.
Context (c : conjugation K).
Lemma cj_0 : c r0 = r0.
Proof.
  assert (E : radd (c r0) (c r0) = c r0) by (rewrite <- cj_add; f_equal; ring).
  transitivity (rsub (radd (c r0) (c r0)) (c r0)); [ring|]. rewrite E. ring.
Qed.
Lemma cj_sum n (f : nat -> K) : c (sum n f) = sum n (fun i => c (f i)).
Proof. induction n as [|n IH]; cbn [sum]; [apply cj_0|]. rewrite cj_add, IH. reflexivity. Qed.
Lemma map_mxM {m n p} (A : mx K m n) (B : mx K n p) : mapmx c (mulmx A B) = mulmx (mapmx c A) (mapmx c B).
Proof.
  apply mx_eq. intros. unfold mapmx, mulmx. rewrite !el_build by assumption. rewrite cj_sum. apply sum_ext. intros. rewrite !el_build by assumption. apply cj_mul.
Qed.
Lemma map_mxD {m n} (A B : mx K m n) : mapmx c (addmx A B) = addmx (mapmx c A) (mapmx c B).
Proof. apply mx_eq. intros. unfold mapmx, addmx. rewrite !el_build by assumption. apply cj_add. Qed.
Lemma map_mx1 n : mapmx c (onemx n) = onemx n.
Proof. apply mx_eq. intros. unfold mapmx, onemx, scalarmx. rewrite !el_build by assumption. destruct (Nat.eqb i j); [apply cj_one|apply cj_0]. Qed.
Lemma map_mx0 m n : mapmx c (@zeromx m n) = zeromx.
Proof. apply mx_eq. intros. unfold mapmx, zeromx. rewrite !el_build by assumption. apply cj_0. Qed.
Lemma map_diagmx {m n} (A : mx K m m) (B : mx K n n) : mapmx c (diagmx A B) = diagmx (mapmx c A) (mapmx c B).
Proof.
  apply mx_eq. intros. unfold mapmx, diagmx. rewrite !el_build by assumption.
  destruct (Nat.ltb_spec i m), (Nat.ltb_spec j m); rewrite ?el_build by lia; try reflexivity; apply cj_0.
Qed.
End Conj.
Lemma map_trmx {m n} f (A : mx K m n) : mapmx f (trmx A) = trmx (mapmx f A).
Proof. apply mx_eq. intros. unfold mapmx, trmx. rewrite !el_build by assumption. reflexivity. Qed.
Lemma map_mxK {m n} f (A : mx K m n) : (forall x, f (f x) = x) -> mapmx f (mapmx f A) = A.
Proof. intros H. apply mx_eq. intros. unfold mapmx. rewrite !el_build by assumption. apply H. Qed.
Lemma map_mx_id {m n} (A : mx K m n) : mapmx (fun x => x) A = A.
Proof. apply mx_eq. intros. unfold mapmx. rewrite !el_build by assumption. reflexivity. Qed.
Lemma diag11 m n : diagmx (onemx m) (onemx n) = onemx (m + n).
Proof.
  apply mx_eq. intros. unfold diagmx, onemx, scalarmx. rewrite !el_build by assumption.
  destruct (Nat.ltb_spec i m), (Nat.ltb_spec j m); rewrite ?el_build by lia;
  repeat match goal with |- context [Nat.eqb ?a ?b] => destruct (Nat.eqb_spec a b); try lia end; reflexivity.
Qed.
End Matrix.
Declare Scope mx_scope.
Delimit Scope mx_scope with mx.
Notation "A *m B" := (mulmx A B) (at level 40, left associativity) : mx_scope.
Notation "A +m B" := (addmx A B) (at level 50, left associativity) : mx_scope.
Notation "A ^T" := (trmx A) (at level 8, format "A ^T") : mx_scope.
