(** A ring for the discrete Fourier transform, for examples that compute: the Gaussian rationals. *)
From Coq Require Import QArith Qcanon.
From Verif Require Import Base Algebra Dft.

(** ** Gaussian rationals *)
Local Open Scope Qc_scope.
Definition GQ : Type := (Qc * Qc)%type.
Definition gadd (a b : GQ) : GQ := (fst a + fst b, snd a + snd b).
Definition gmul (a b : GQ) : GQ := (fst a * fst b - snd a * snd b, fst a * snd b + snd a * fst b).
Definition gopp (a : GQ) : GQ := (- fst a, - snd a).
Definition gsub (a b : GQ) : GQ := gadd a (gopp b).
Lemma gth : ring_theory (0, 0) (1, 0) gadd gmul gsub gopp eq.
Proof.
  constructor; intros; unfold gsub, gadd, gmul, gopp; repeat match goal with p : (Qc * Qc)%type |- _ => destruct p end; cbn [fst snd]; f_equal; ring.
Qed.
Definition GQring : cring := {| car := GQ; r0 := (0, 0); r1 := (1, 0); radd := gadd; rmul := gmul; rsub := gsub; ropp := gopp; rth := gth |}.
Definition gconj (a : GQ) : GQ := (fst a, - snd a).
Definition qnat (n : nat) : Qc := Q2Qc (inject_Z (Z.of_nat n)).
Definition gninv (n : nat) : GQ := (/ qnat n, 0).
Lemma grnat n : @rnat GQring n = (qnat n, 0).
Proof.
  induction n; [cbn; f_equal; apply Qc_is_canon; reflexivity|]. cbn [rnat]. rewrite IHn. cbn. unfold gadd. cbn [fst snd]. f_equal.
  unfold qnat. apply Qc_is_canon. unfold Qcplus. cbn [this Q2Qc]. rewrite !Qred_correct. rewrite Nat2Z.inj_succ. unfold Z.succ. rewrite inject_Z_plus, Qplus_comm. reflexivity.
Qed.
Lemma qnat_0 n : n <> 0%nat -> qnat n <> 0.
Proof.
  intros H E. apply (f_equal this) in E. unfold qnat in E. cbn [this Q2Qc] in E. assert (inject_Z (Z.of_nat n) == 0)%Q as A.
  { rewrite <- Qred_correct, E. reflexivity. } unfold Qeq in A. cbn in A. lia.
Qed.
Definition GQf : cfield.
Proof.
  refine {| cf_ring := GQring; conj := gconj : GQring -> GQring; ninv := gninv : nat -> GQring |}.
  - intros [] []. cbn. unfold gconj, gadd. cbn. f_equal. ring.
  - intros [] []. cbn. unfold gconj, gmul. cbn. f_equal; ring.
  - intros []. unfold gconj. cbn. f_equal. ring.
  - cbn. unfold gconj. cbn. f_equal; ring.
  - intros n H. rewrite grnat. cbn. unfold gmul, gninv. cbn [fst snd]. apply qnat_0 in H. f_equal; [|ring]. rewrite Qcmult_comm. rewrite (Qcmult_inv_r _ H). ring.
Defined.
Definition gint (z : Z) : GQf := (Q2Qc (inject_Z z), 0).
Definition gi : GQf := (0, - (1)).
Lemma GQ_root4 : root (K := GQf) 4 gi.
Proof. split; [lia|]. split; [reflexivity|]. split; [reflexivity|]. intros j Hj. assert (j = 1 \/ j = 2 \/ j = 3)%nat as [-> | [-> | ->]] by lia; reflexivity. Qed.
Lemma GQ_root2 : root (K := GQf) 2 (gint (-1)).
Proof. split; [lia|]. split; [reflexivity|]. split; [reflexivity|]. intros j Hj. assert (j = 1)%nat as -> by lia; reflexivity. Qed.

(** Equality of rationals is decided on their reduced fractions. *)
Definition gq (a : GQf) : Q * Q := (this (fst a), this (snd a)).
Lemma gq_inj a b : gq a = gq b -> a = b.
Proof.
  destruct a as [x y], b as [u v]. unfold gq. cbn [fst snd]. intros E. injection E as E1 E2. f_equal; apply Qc_is_canon; [rewrite E1|rewrite E2]; reflexivity.
Qed.
Lemma gq_row l : forall l', map gq l = map gq l' -> l = l'.
Proof. induction l as [|a l IH]; intros [|b l'] E; try discriminate; auto. cbn [map] in E. injection E as E1 E2 E3. f_equal; auto. apply gq_inj. unfold gq. congruence. Qed.
Lemma gq_rows l : forall l', map (map gq) l = map (map gq) l' -> l = l'.
Proof. induction l as [|a l IH]; intros [|b l'] E; try discriminate; auto. cbn [map] in E. assert (map gq a = map gq b /\ map (map gq) l = map (map gq) l') as [E1 E2] by (split; congruence). f_equal; auto. apply gq_row, E1. Qed.
