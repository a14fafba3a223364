From Coq Require Import Lia List Arith.
From Verif Require Import Base Algebra Ofield NormModel NormSpec.
Import ListNotations.
Set Implicit Arguments. Unset Strict Implicit.

Section Loop.
Context {V : Type} (f : V -> nat -> V).
Lemma loop_cells (size input output : nat) (m : mem V) : same_or_apart size input output ->
  forall k, k <= size -> let w := fold_left (fun w i => put w (output + i) (f (w (input + i)) i)) (seq 0 k) m in
  (forall i, i < k -> w (output + i) = f (m (input + i)) i) /\ (forall b, b < output \/ output + k <= b -> w b = m b).
Proof.
  intros A. induction k as [|k IH]; intros L; [split; [intros; lia|reflexivity]|]. cbn zeta in *.
  rewrite seq_S, fold_left_app. cbn [fold_left]. destruct (IH ltac:(lia)) as [I1 I2]. set (w := fold_left _ (seq 0 k) m) in *. split.
  - intros i Hi. unfold put. destruct (Nat.eqb_spec (output + i) (output + (0 + k))) as [E|N].
    + assert (i = k) by lia. subst i. rewrite I2; [reflexivity|]. unfold same_or_apart in A. lia.
    + apply I1. lia.
  - intros b Hb. unfold put. destruct (Nat.eqb_spec b (output + (0 + k))) as [E|N]; [lia|]. apply I2. lia.
Qed.
End Loop.

Lemma row_index (n r j : nat) : j < n -> (r * n + j) / n = r.
Proof. intros L. rewrite Nat.add_comm, Nat.div_add by lia. rewrite Nat.div_small by exact L. lia. Qed.
Lemma row_bound (rows n r j : nat) : r < rows -> j < n -> r * n + j < rows * n.
Proof. nia. Qed.

Section Cells.
Context {V : Type} (zero : V) (add : V -> V -> V) (power2 sqrt : V -> V) (divide : V -> V -> V).
Notation direct := (direct zero add power2 sqrt divide).
Lemma direct_row (rows n input output : nat) (m : mem V) r j : same_or_apart (rows * n) input output -> r < rows -> j < n ->
  row n output (direct rows n input output m) r j
  = divide (row n input m r j) (sqrt (np_sum zero add n (fun k => power2 (row n input m r k)))).
Proof.
  intros A R J. unfold row, direct.
  destruct (loop_cells (fun v i => divide v (sqrt (np_sum zero add n (fun k => power2 (m (input + (i / n * n + k))))))) m A (le_n _)) as [H _].
  rewrite H by (apply row_bound; assumption). rewrite row_index by exact J. reflexivity.
Qed.
Lemma direct_others (rows n input output : nat) (m : mem V) b : same_or_apart (rows * n) input output ->
  b < output \/ output + rows * n <= b -> direct rows n input output m b = m b.
Proof.
  intros A B. unfold direct.
  destruct (loop_cells (fun v i => divide v (sqrt (np_sum zero add n (fun k => power2 (m (input + (i / n * n + k))))))) m A (le_n _)) as [_ H].
  apply H. exact B.
Qed.
End Cells.

Section Field.
Context {K : ofield}.
Add Ring KringN : (rth K).
Local Open Scope cr_scope.
Implicit Types x y z : nat -> K.

Lemma np_sum_sum n (f : nat -> K) : np_sum 0 radd n f = sum n f.
Proof. unfold np_sum. induction n as [|n IH]; [reflexivity|]. rewrite seq_S, fold_left_app. cbn [fold_left sum]. rewrite IH. reflexivity. Qed.

Lemma np_sum_ext (n : nat) (f g : nat -> K) : (forall j, (j < n)%nat -> f j = g j) -> np_sum 0 radd n f = np_sum 0 radd n g.
Proof. intros H. rewrite !np_sum_sum. apply sum_ext, H. Qed.

Lemma squared_norm_pos n x : nonzero n x -> lt 0 (squared_norm n x).
Proof.
  intros (j & L & N). assert (le 0 (squared_norm n x)) as P by (apply sum_nonneg; intros; apply square_nonneg).
  apply le_lt_eq in P. destruct P as [P|P]; [exact P|]. exfalso.
  pose proof (@sum_nonneg_zero K n (fun j => x j * x j) (fun i _ => square_nonneg (x i)) (eq_sym P) j L) as Z.
  apply mul_zero in Z. tauto.
Qed.
Lemma root_pos (rt : K -> K) a : root_at rt a -> lt 0 a -> lt 0 (rt a).
Proof.
  intros [P E] L. apply le_lt_eq in P. destruct P as [P|P]; [exact P|]. exfalso. rewrite <- P, rmul_0_l in E. exact (lt_neq _ _ L E).
Qed.
Lemma squared_norm_scale n x y (c : K) : (forall j, (j < n)%nat -> y j = c * x j) -> squared_norm n y = c * c * squared_norm n x.
Proof. intros H. unfold squared_norm. rewrite <- sum_mul_l. apply sum_ext. intros j L. rewrite H by exact L. ring. Qed.
Lemma squares_equal (a b : K) : lt 0 a -> lt 0 b -> a * a = b * b -> a = b.
Proof.
  intros A B E. assert ((a + b) * (a - b) = 0) as F by (replace ((a + b) * (a - b)) with (a * a - b * b) by ring; rewrite E; ring).
  apply mul_zero in F. destruct F as [F|F].
  - exfalso. pose proof (lt_add_pos a b A (lt_asym _ _ B)) as L. rewrite F in L. exact (lt_neq _ _ L eq_refl).
  - replace a with (a - b + b) by ring. rewrite F. ring.
Qed.
Lemma same_direction_sym n x y : same_direction n x y -> same_direction n y x.
Proof.
  intros (c & P & H). pose proof (lt_neq _ _ P) as N. exists (inv c). split; [apply inv_pos, P|]. intros j L. rewrite (H j L).
  rewrite rmul_assoc, (rmul_comm (inv c)), inv_ok by congruence. ring.
Qed.
Lemma same_direction_trans n x y z : same_direction n x y -> same_direction n y z -> same_direction n x z.
Proof.
  intros (c & P & H) (d & Q & I). exists (d * c). split; [apply lt_mul; assumption|]. intros j L. rewrite (I j L), (H j L). ring.
Qed.
Lemma unit_unique n x y : same_direction n x y -> unit_vector n x -> unit_vector n y -> forall j, (j < n)%nat -> y j = x j.
Proof.
  intros (c & P & H) U W j L. unfold unit_vector in *. rewrite (squared_norm_scale H), U in W.
  destruct (eq_dec (1 : K) 0) as [Z|Z]. { replace (y j) with (1 * y j) by ring. replace (x j) with (1 * x j) by ring. rewrite Z. ring. }
  assert (c = 1) as E. { apply squares_equal; [exact P|apply lt_0_1, Z|]. replace (c * c) with (c * c * 1) by ring. rewrite W. ring. }
  rewrite (H j L), E. ring.
Qed.

Definition normalised (rt : K -> K) (n : nat) (x : nat -> K) : nat -> K := fun j => div (x j) (rt (squared_norm n x)).
Lemma normalised_direction (rt : K -> K) n x : nonzero n x -> root_at rt (squared_norm n x) -> same_direction n x (normalised rt n x).
Proof.
  intros N R. pose proof (root_pos R (squared_norm_pos N)) as P. exists (inv (rt (squared_norm n x))). split; [apply inv_pos, P|].
  intros j _. unfold normalised, div. ring.
Qed.
Lemma normalised_unit (rt : K -> K) n x : nonzero n x -> root_at rt (squared_norm n x) -> unit_vector n (normalised rt n x).
Proof.
  intros N R. pose proof (root_pos R (squared_norm_pos N)) as P. pose proof (lt_neq _ _ P) as Q. unfold unit_vector.
  set (s := squared_norm n x) in *. rewrite (@squared_norm_scale n x (normalised rt n x) (inv (rt s))) by (intros; unfold normalised, div; fold s; ring).
  fold s. destruct R as [_ R]. rewrite <- R at 3. replace (inv (rt s) * inv (rt s) * (rt s * rt s)) with ((rt s * inv (rt s)) * (rt s * inv (rt s))) by ring.
  rewrite inv_ok by congruence. ring.
Qed.
Lemma np_normalised (rt : K -> K) (rows n input output : nat) (m : mem K) r j : same_or_apart (rows * n) input output -> (r < rows)%nat -> (j < n)%nat ->
  row n output (direct 0 radd (fun v => v * v) rt div rows n input output m) r j = normalised rt n (row n input m r) j.
Proof. intros A R J. rewrite direct_row by assumption. rewrite np_sum_sum. reflexivity. Qed.
End Field.

(** ** Examples *)
From Coq Require Import QArith Qcanon.
Close Scope Qc_scope. Close Scope Q_scope.
Definition q (z : Z) : Qf := Q2Qc (inject_Z z).
(** the vectors (3, 4) and (-6, 8) *)
Definition two_vectors : mem Qf := fun a => nth a [q 3; q 4; q (-6); q 8] (q 0).
Definition some_roots (a : Qf) : Qf := if Qc_eq_bool a (q 25) then q 5 else if Qc_eq_bool a (q 100) then q 10 else if Qc_eq_bool a (q 1) then q 1 else q 0.
Definition fractions (l : list Qf) : list Q := map this l.

(** complex numbers with rational parts: the ufuncs np.add, x**2 and np.divide, and the square of the modulus *)
Definition complex := (Q * Q)%type.
Definition cadd (a b : complex) : complex := (fst a + fst b, snd a + snd b)%Q.
Definition csquare (a : complex) : complex := (fst a * fst a - snd a * snd a, 2 * fst a * snd a)%Q.
Definition modulus2 (a : complex) : Q := (fst a * fst a + snd a * snd a)%Q.
Definition cdivide (a b : complex) : complex :=
  ((fst a * fst b + snd a * snd b) / modulus2 b, (snd a * fst b - fst a * snd b) / modulus2 b)%Q.
