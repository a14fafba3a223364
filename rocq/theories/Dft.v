(** The discrete Fourier transform over a commutative ring with an involution (the conjugation), a root of unity for each
    axis and the inverses of the natural numbers.  The complex numbers have all of them (DftComplex.v); nothing else about
    them is used.  The arrays are functions of the list of the indices, the last axis of the code being the first item. *)
From Verif Require Import Base Algebra.

Section Powers.
Context {K : cring}.
Add Ring KringP : (rth K).
Local Open Scope cr_scope.
Fixpoint rpow (a : K) (n : nat) : K := match n with O => 1 | S n => a * rpow a n end.
Lemma rpow_add a n m : rpow a (n + m) = rpow a n * rpow a m.
Proof. induction n; cbn [rpow Nat.add]; [ring|]. rewrite IHn. ring. Qed.
Lemma rpow_1 n : rpow 1 n = 1.
Proof. induction n; cbn [rpow]; auto. rewrite IHn. ring. Qed.
Lemma rpow_mul_base a b n : rpow (a * b) n = rpow a n * rpow b n.
Proof. induction n; cbn [rpow]; [ring|]. rewrite IHn. ring. Qed.
Lemma rpow_mul a n m : rpow a (n * m) = rpow (rpow a n) m.
Proof. induction n; cbn [rpow Nat.mul]. { rewrite rpow_1. reflexivity. } rewrite rpow_add, rpow_mul_base, IHn. reflexivity. Qed.
(** the natural numbers of the ring *)
Fixpoint rnat (n : nat) : K := match n with O => 0 | S n => 1 + rnat n end.
Lemma sum_const n c : sum n (fun _ => c) = rnat n * c.
Proof. induction n; cbn [sum rnat]; [ring|]. rewrite IHn. ring. Qed.
Lemma rnat_mul n m : rnat (n * m) = rnat n * rnat m.
Proof.
  assert (forall a b, rnat (a + b) = rnat a + rnat b) as A by (intros a b; induction a; cbn [rnat Nat.add]; [ring|rewrite IHa; ring]).
  induction n; cbn [rnat Nat.mul]; [ring|]. rewrite A, IHn. ring.
Qed.
End Powers.

(** A ring with a conjugation and the inverses of the positive integers. *)
Record cfield := {
  cf_ring :> cring;
  conj : cf_ring -> cf_ring;
  conj_add : forall a b, conj (radd a b) = radd (conj a) (conj b);
  conj_mul : forall a b, conj (rmul a b) = rmul (conj a) (conj b);
  conj_conj : forall a, conj (conj a) = a;
  conj_1 : conj r1 = r1;
  ninv : nat -> cf_ring;
  ninv_ok : forall n, n <> 0 -> rmul (ninv n) (rnat n) = r1
}.
Arguments conj {_}. Arguments ninv {_}.

Section Dft.
Context {K : cfield}.
Add Ring KringD : (rth K).
Local Open Scope cr_scope.
Notation array := (list nat -> K).

(** A real number is equal to its conjugate. *)
Definition is_real (a : K) : Prop := conj a = a.
Definition re (a : K) : K := ninv 2 * (a + conj a).

(** w is a principal n-th root of unity *)
Definition root (n : nat) (w : K) : Prop := 0 < n /\ rpow w n = 1 /\ conj w * w = 1 /\ forall j, 0 < j < n -> sum n (fun k => rpow w (j * k)) = 0.

(** An axis: its length, its root, and whether the transform is done along it. *)
Record axis := Ax { a_n : nat; a_w : K; a_on : bool }.
Definition axis_ok (a : axis) : Prop := root (a_n a) (a_w a).
Notation dims := (list axis).

(** the indices *)
Definition inside (d : dims) (l : list nat) : Prop := Forall2 (fun a i => i < a_n a) d l.

(** the sum over all indices *)
Fixpoint bsum (d : dims) (f : array) : K :=
  match d with [] => f [] | a :: d => sum (a_n a) (fun i => bsum d (fun l => f (i :: l))) end.
(** the number of elements, and the product of the lengths of the transformed axes *)
Definition nelem (d : dims) : nat := fold_right (fun a n => a_n a * n)%nat 1%nat d.
Definition norm (d : dims) : nat := fold_right (fun a n => (if a_on a then a_n a else 1) * n)%nat 1%nat d.

Definition chi1 (a : axis) (j k : nat) : K := if a_on a then rpow (a_w a) (j * k) else if Nat.eqb j k then 1 else 0.
Fixpoint chi (d : dims) (j k : list nat) : K :=
  match d, j, k with a :: d, i :: j, h :: k => chi1 a i h * chi d j k | _, _, _ => 1 end.

(** The unnormalised forward and backward transforms. *)
Definition fwd (d : dims) (x : array) : array := fun k => bsum d (fun j => chi d j k * x j).
Definition bwd (d : dims) (x : array) : array := fun j => bsum d (fun k => conj (chi d j k) * x k).

(** ** conj *)
Lemma conj_0 : conj (r0 : K) = 0.
Proof. assert (conj (r0 : K) = conj r0 + conj r0) as E by (rewrite <- conj_add; f_equal; ring). transitivity (conj (r0 : K) - conj (r0 : K)); [rewrite E at 2|]; ring. Qed.
Lemma conj_opp (a : K) : conj (- a) = - conj a.
Proof. assert (conj (- a) + conj a = 0) as E by (rewrite <- conj_add, <- conj_0; f_equal; ring). replace (conj (- a)) with (conj (- a) + conj a - conj a) by ring. rewrite E. ring. Qed.
Lemma conj_sum n (f : nat -> K) : conj (sum n f) = sum n (fun i => conj (f i)).
Proof. induction n; cbn [sum]; [apply conj_0|]. rewrite conj_add, IHn. reflexivity. Qed.
Lemma conj_pow (a : K) n : conj (rpow a n) = rpow (conj a) n.
Proof. induction n; cbn [rpow]; [apply conj_1|]. rewrite conj_mul, IHn. reflexivity. Qed.
Lemma conj_rnat n : conj (rnat n : K) = rnat n.
Proof. induction n; cbn [rnat]; [apply conj_0|]. rewrite conj_add, IHn, conj_1. reflexivity. Qed.
Lemma conj_ninv n : n <> 0%nat -> conj (ninv n : K) = ninv n.
Proof.
  intros H. pose proof (ninv_ok K n H) as E. pose proof (f_equal conj E) as E2. rewrite conj_mul, conj_rnat, conj_1 in E2.
  transitivity (@conj K (ninv n) * (ninv n * rnat n)); [rewrite E; ring|]. transitivity (@conj K (ninv n) * rnat n * ninv n); [ring|]. rewrite E2. ring.
Qed.
Lemma re_real (a : K) : is_real a -> re a = a.
Proof.
  intros H. unfold re. rewrite H. transitivity ((ninv 2 : K) * rnat 2 * a); [cbn [rnat]; ring|]. rewrite ninv_ok by lia. ring.
Qed.
Lemma real_re (a : K) : is_real (re a).
Proof. unfold is_real, re. rewrite conj_mul, conj_add, conj_conj, conj_ninv by lia. ring. Qed.

(** ** sums over all indices *)
Lemma bsum_ext d (f g : array) : (forall l, inside d l -> f l = g l) -> bsum d f = bsum d g.
Proof.
  revert f g. induction d as [|a d IH]; intros f g H; cbn [bsum]; [apply H; constructor|]. apply sum_ext. intros i Hi. apply IH. intros l Hl. apply H. constructor; auto.
Qed.
Lemma bsum_add d f g : bsum d (fun l => f l + g l) = bsum d f + bsum d g.
Proof. revert f g. induction d as [|a d IH]; intros f g; cbn [bsum]; auto. rewrite <- sum_add. apply sum_ext. intros. apply IH. Qed.
Lemma bsum_mul_l d c f : bsum d (fun l => c * f l) = c * bsum d f.
Proof. revert f. induction d as [|a d IH]; intros f; cbn [bsum]; auto. rewrite <- sum_mul_l. apply sum_ext. intros. apply (IH (fun l => f (i :: l))). Qed.
Lemma bsum_sum d n (f : nat -> array) : bsum d (fun l => sum n (fun i => f i l)) = sum n (fun i => bsum d (f i)).
Proof.
  revert f. induction d as [|a d IH]; intros f; cbn [bsum]; auto.
  rewrite (sum_ext (a_n a) _ (fun i => sum n (fun i0 => bsum d (fun l => f i0 (i :: l))))) by (intros; apply IH). apply sum_swap.
Qed.
Lemma bsum_swap d e (f : list nat -> array) : bsum d (fun j => bsum e (fun k => f j k)) = bsum e (fun k => bsum d (fun j => f j k)).
Proof.
  revert f. induction d as [|a d IH]; intros f; cbn [bsum]; auto. rewrite bsum_sum. apply sum_ext. intros i Hi. apply (IH (fun j => f (i :: j))).
Qed.
Lemma bsum_zero d f : (forall l, inside d l -> f l = 0) -> bsum d f = 0.
Proof. intros H. rewrite (bsum_ext d f (fun l => 0 * f l)); [rewrite bsum_mul_l; ring|]. intros l Hl. rewrite H by auto. ring. Qed.
Lemma bsum_single d f k : inside d k -> (forall l, inside d l -> l <> k -> f l = 0) -> bsum d f = f k.
Proof.
  revert f k. induction d as [|a d IH]; intros f k Hk H; inversion Hk; subst; cbn [bsum]; auto.
  rewrite (sum_single _ _ y); auto.
  - apply (IH (fun l => f (y :: l))); auto. intros l1 Hl1 Hne. apply H; [constructor; auto|congruence].
  - intros i Hi Hne. apply bsum_zero. intros l1 Hl1. apply H; [constructor; auto|congruence].
Qed.
Lemma bsum_prod a d (f : nat -> K) (g : array) : sum (a_n a) (fun i => bsum d (fun l => f i * g l)) = sum (a_n a) f * bsum d g.
Proof. rewrite <- sum_mul_r. apply sum_ext. intros. apply bsum_mul_l. Qed.
Lemma conj_bsum d f : conj (bsum d f) = bsum d (fun l => conj (f l)).
Proof. revert f. induction d as [|a d IH]; intros f; cbn [bsum]; auto. rewrite conj_sum. apply sum_ext. intros. apply IH. Qed.

(** ** orthogonality *)
Lemma w_cancel (w : K) n m : conj w * w = 1 -> rpow w (n + m) * rpow (conj w) m = rpow w n.
Proof.
  intros H. rewrite rpow_add. replace (rpow w n * rpow w m * rpow (conj w) m) with (rpow w n * rpow (conj w * w) m) by (rewrite rpow_mul_base; ring). rewrite H, rpow_1. ring.
Qed.
Lemma ortho1 n (w : K) i j : root n w -> i < n -> j < n -> sum n (fun k => rpow w (i * k) * conj (rpow w (j * k))) = if Nat.eqb i j then rnat n else 0.
Proof.
  intros (Hn & H1 & Hc & H0) Hi Hj.
  assert (forall i j, j <= i -> i < n -> sum n (fun k => rpow w (i * k) * conj (rpow w (j * k))) = if Nat.eqb i j then rnat n else 0) as G.
  { clear i j Hi Hj. intros i j Hij Hi. rewrite (sum_ext _ _ (fun k => rpow w ((i - j) * k))).
    - destruct (Nat.eqb_spec i j) as [->|Ne].
      + rewrite Nat.sub_diag. cbn [Nat.mul rpow]. rewrite sum_const. ring.
      + apply H0. lia.
    - intros k Hk. rewrite conj_pow. replace (i * k)%nat with ((i - j) * k + j * k)%nat by nia. apply w_cancel; auto. }
  destruct (le_lt_dec j i) as [L|L]; [apply G; auto|].
  rewrite <- (conj_conj K (sum n _)), conj_sum.
  rewrite (sum_ext _ _ (fun k => rpow w (j * k) * conj (rpow w (i * k)))) by (intros; rewrite conj_mul, conj_conj; ring).
  rewrite G by lia. rewrite Nat.eqb_sym. destruct (Nat.eqb i j); [apply conj_rnat|apply conj_0].
Qed.
Lemma chi1_sym a i j : chi1 a i j = chi1 a j i.
Proof. unfold chi1. rewrite Nat.mul_comm, Nat.eqb_sym. reflexivity. Qed.
Lemma ortho_axis a i j : axis_ok a -> i < a_n a -> j < a_n a ->
  sum (a_n a) (fun k => chi1 a i k * conj (chi1 a j k)) = if Nat.eqb i j then rnat (if a_on a then a_n a else 1) else 0.
Proof.
  intros W Hi Hj. unfold chi1. destruct (a_on a); [apply ortho1; auto|].
  rewrite (sum_single _ _ i); auto.
  - rewrite Nat.eqb_refl, (Nat.eqb_sym j i). destruct (Nat.eqb i j); rewrite ?conj_1, ?conj_0; cbn [rnat]; ring.
  - intros k Hk Ne. destruct (Nat.eqb_spec i k); [congruence|]. ring.
Qed.
Lemma rnat_norm a d : rnat (norm (a :: d)) = rnat (if a_on a then a_n a else 1%nat) * rnat (norm d) :> K.
Proof. cbn [norm fold_right]. apply rnat_mul. Qed.
Fixpoint leqb (i j : list nat) : bool := match i, j with [], [] => true | a :: i, b :: j => Nat.eqb a b && leqb i j | _, _ => false end.
Lemma leqb_spec i j : reflect (i = j) (leqb i j).
Proof.
  revert j. induction i as [|a i IH]; intros [|b j]; cbn [leqb]; try (constructor; congruence).
  destruct (Nat.eqb_spec a b) as [->|N]; cbn [andb]; [|constructor; congruence]. destruct (IH j) as [->|N]; constructor; congruence.
Qed.
Lemma ortho d i j : Forall axis_ok d -> inside d i -> inside d j ->
  bsum d (fun k => chi d i k * conj (chi d j k)) = if leqb i j then rnat (norm d) else 0.
Proof.
  revert i j. induction d as [|a d IH]; intros i j F I J; inversion I; subst; inversion J; subst; inversion F; subst; cbn [bsum].
  - cbn [leqb chi norm fold_right rnat]. rewrite conj_1. ring.
  - rewrite (sum_ext _ _ (fun i => bsum d (fun l1 => (chi1 a y i * conj (chi1 a y0 i)) * (chi d l' l1 * conj (chi d l'0 l1))))).
    + rewrite bsum_prod. rewrite ortho_axis by auto. rewrite IH by auto. cbn [leqb]. rewrite rnat_norm. destruct (Nat.eqb y y0), (leqb l' l'0); cbn [andb]; ring.
    + intros i Hi. apply bsum_ext. intros l1 Hl1. cbn [chi]. rewrite conj_mul. ring.
Qed.
Lemma chi_sym d : forall i j, chi d i j = chi d j i.
Proof. induction d as [|a d IH]; intros [|x i] [|y j]; cbn [chi]; auto. rewrite IH, chi1_sym. reflexivity. Qed.

(** The backward transform undoes the forward one, but for the norm. *)
Lemma bwd_fwd d x j : Forall axis_ok d -> inside d j -> bwd d (fwd d x) j = rnat (norm d) * x j.
Proof.
  intros F J. unfold bwd, fwd.
  rewrite (bsum_ext d _ (fun k => bsum d (fun i => (chi d i k * conj (chi d j k)) * x i))).
  2:{ intros k Hk. rewrite <- bsum_mul_l. apply bsum_ext. intros i Hi. ring. }
  rewrite bsum_swap. rewrite (bsum_ext d _ (fun i => (if leqb i j then rnat (norm d) else 0) * x i)).
  - rewrite (bsum_single d _ j); auto.
    + destruct (leqb_spec j j); [ring|congruence].
    + intros l Hl Ne. destruct (leqb_spec l j); [congruence|ring].
  - intros i Hi. rewrite <- ortho by auto. rewrite (bsum_ext d _ (fun k => x i * (chi d i k * conj (chi d j k)))) by (intros; ring). rewrite bsum_mul_l. ring.
Qed.
Lemma fwd_bwd d x j : Forall axis_ok d -> inside d j -> fwd d (bwd d x) j = rnat (norm d) * x j.
Proof.
  intros F J. unfold bwd, fwd.
  rewrite (bsum_ext d _ (fun k => bsum d (fun i => (chi d j k * conj (chi d i k)) * x i))).
  2:{ intros k Hk. rewrite <- bsum_mul_l. apply bsum_ext. intros i Hi. rewrite (chi_sym d k j), (chi_sym d k i). ring. }
  rewrite bsum_swap. rewrite (bsum_ext d _ (fun i => (if leqb j i then rnat (norm d) else 0) * x i)).
  - rewrite (bsum_single d _ j); auto.
    + destruct (leqb_spec j j); [ring|congruence].
    + intros l Hl Ne. destruct (leqb_spec j l); [congruence|ring].
  - intros i Hi. rewrite <- ortho by auto. rewrite (bsum_ext d _ (fun k => x i * (chi d j k * conj (chi d i k)))) by (intros; ring). rewrite bsum_mul_l. ring.
Qed.
(** The backward transform is the adjoint of the forward one. *)
Lemma fwd_adjoint d x y : bsum d (fun k => conj (y k) * fwd d x k) = bsum d (fun j => conj (bwd d y j) * x j).
Proof.
  unfold fwd, bwd. rewrite (bsum_ext d _ (fun k => bsum d (fun j => conj (y k) * chi d j k * x j))).
  2:{ intros k Hk. rewrite <- bsum_mul_l. apply bsum_ext. intros. ring. }
  rewrite bsum_swap. apply bsum_ext. intros j Hj. rewrite conj_bsum. rewrite (rmul_comm _ (x j)), <- bsum_mul_l. apply bsum_ext. intros k Hk. rewrite conj_mul, conj_conj. ring.
Qed.

(** ** circular convolution *)
Definition addi (d : dims) (i j : list nat) : list nat := map (fun p => let '(a, (x, y)) := p in ((x + y) mod a_n a)%nat) (combine d (combine i j)).
Definition negi (d : dims) (i : list nat) : list nat := map (fun p => let '(a, x) := p in ((a_n a - x) mod a_n a)%nat) (combine d i).
Definition subi (d : dims) (i j : list nat) : list nat := addi d i (negi d j).
Definition cconv (d : dims) (h x : array) : array := fun m => bsum d (fun j => h (subi d m j) * x j).

Lemma axis_pos a : axis_ok a -> a_n a <> 0%nat.
Proof. intros [H _]. lia. Qed.
Lemma addi_inside d i j : Forall axis_ok d -> inside d i -> inside d j -> inside d (addi d i j).
Proof.
  revert i j. induction d as [|a d IH]; intros i j F I J; inversion I; subst; inversion J; subst; inversion F; subst; cbn; constructor.
  - apply Nat.mod_upper_bound, axis_pos. auto.
  - apply IH; auto.
Qed.
Lemma negi_inside d i : Forall axis_ok d -> inside d i -> inside d (negi d i).
Proof.
  revert i. induction d as [|a d IH]; intros i F I; inversion I; subst; inversion F; subst; cbn; constructor.
  - apply Nat.mod_upper_bound, axis_pos. auto.
  - apply IH; auto.
Qed.
Lemma mod_small_or n a : 0 < n -> a < n + n -> (a mod n = if a <? n then a else a - n)%nat.
Proof.
  intros Hn H. destruct (Nat.ltb_spec a n); [apply Nat.mod_small; auto|]. symmetry. apply (Nat.mod_unique _ _ 1); lia.
Qed.
Lemma sum_shift n c (f : nat -> K) : c < n -> sum n (fun m => f ((m + c) mod n)%nat) = sum n f.
Proof.
  intros Hc. transitivity (sum ((n - c) + c) (fun m => f ((m + c) mod n)%nat)); [f_equal; lia|]. rewrite sum_split.
  rewrite (sum_ext (n - c) _ (fun m => f (c + m)%nat)).
  2:{ intros i Hi. f_equal. rewrite Nat.mod_small by lia. lia. }
  rewrite (sum_ext c _ f).
  2:{ intros i Hi. f_equal. rewrite mod_small_or by lia. destruct (Nat.ltb_spec (n - c + i + c) n); lia. }
  assert (sum n f = sum c f + sum (n - c) (fun m => f (c + m)%nat)) as -> by (rewrite <- sum_split; f_equal; lia). ring.
Qed.
Lemma sum_neg n (f : nat -> K) : 0 < n -> sum n (fun m => f ((n - m) mod n)%nat) = sum n f.
Proof.
  intros Hn. destruct n as [|n]; [lia|]. rewrite !sum_S_l. f_equal. { rewrite Nat.sub_0_r, Nat.mod_same by lia. reflexivity. }
  rewrite (sum_rev n (fun i => f (S i))). apply sum_ext. intros i Hi. f_equal. rewrite Nat.mod_small by lia. lia.
Qed.
Lemma bsum_shift d j f : Forall axis_ok d -> inside d j -> bsum d (fun m => f (addi d m j)) = bsum d f.
Proof.
  revert j f. induction d as [|a d IH]; intros j f F J; inversion J; subst; inversion F; subst; cbn [bsum]; auto.
  rewrite <- (sum_shift (a_n a) y (fun i => bsum d (fun l => f (i :: l)))) by auto. apply sum_ext. intros i Hi. apply (IH l' (fun l => f (((i + y) mod a_n a)%nat :: l))); auto.
Qed.
Lemma bsum_neg d f : Forall axis_ok d -> bsum d (fun m => f (negi d m)) = bsum d f.
Proof.
  revert f. induction d as [|a d IH]; intros f F; inversion F; subst; cbn [bsum]; auto.
  rewrite <- (sum_neg (a_n a) (fun i => bsum d (fun l => f (i :: l)))) by (apply Nat.neq_0_lt_0, axis_pos; auto). apply sum_ext. intros i Hi. apply (IH (fun l => f (((a_n a - i) mod a_n a)%nat :: l))); auto.
Qed.
Lemma rpow_mod n (w : K) k : root n w -> rpow w (k mod n) = rpow w k.
Proof.
  intros (Hn & H1 & _). rewrite (Nat.div_mod k n) at 2 by lia. rewrite rpow_add, rpow_mul, H1, rpow_1. ring.
Qed.
Definition all_on (d : dims) : Prop := Forall (fun a => a_on a = true) d.
Lemma rpow_mul_mod n (w : K) i k : root n w -> rpow w (i mod n * k) = rpow w (i * k).
Proof.
  intros R. rewrite <- (rpow_mod n w (i mod n * k)), <- (rpow_mod n w (i * k)) by auto. f_equal. apply Nat.mul_mod_idemp_l. destruct R. lia.
Qed.
Lemma chi_add d i j k : Forall axis_ok d -> all_on d -> inside d i -> inside d j -> inside d k -> chi d (addi d i j) k = chi d i k * chi d j k.
Proof.
  revert i j k. induction d as [|a d IH]; intros i j k F O I J H; inversion I; subst; inversion J; subst; inversion H; subst; inversion F; subst; inversion O; subst.
  - cbn. ring.
  - cbn [addi combine map chi]. fold (addi d l' l'0). rewrite IH by auto. unfold chi1. replace (a_on a) with true by auto. rewrite rpow_mul_mod by auto. rewrite Nat.mul_add_distr_r, rpow_add. ring.
Qed.
Lemma chi_neg d i k : Forall axis_ok d -> all_on d -> inside d i -> inside d k -> chi d (negi d i) k = conj (chi d i k).
Proof.
  revert i k. induction d as [|a d IH]; intros i k F O I H; inversion I; subst; inversion H; subst; inversion F; subst; inversion O; subst.
  - cbn. symmetry. apply conj_1.
  - cbn [negi combine map chi]. fold (negi d l'). rewrite IH by auto. rewrite conj_mul. f_equal. unfold chi1. replace (a_on a) with true by auto. rewrite rpow_mul_mod by auto. rewrite conj_pow.
    match goal with H : axis_ok a |- _ => destruct H as (Hn & W1 & Wc & _) end. rewrite Nat.mul_sub_distr_r. 
    transitivity (rpow (a_w a) (a_n a * y0 - y * y0) * rpow (conj (a_w a) * a_w a) (y * y0)); [rewrite Wc, rpow_1; ring|].
    rewrite rpow_mul_base. transitivity (rpow (a_w a) (a_n a * y0 - y * y0 + y * y0) * rpow (conj (a_w a)) (y * y0)); [rewrite rpow_add; ring|].
    rewrite Nat.sub_add by nia. rewrite rpow_mul, W1, rpow_1. ring.
Qed.
Lemma addi_neg d m j : Forall axis_ok d -> inside d m -> inside d j -> subi d (addi d m j) j = m.
Proof.
  unfold subi. revert m j. induction d as [|a d IH]; intros m j F I J; inversion I; subst; inversion J; subst; inversion F; subst; cbn; auto. f_equal; [|apply IH; auto].
  match goal with H : axis_ok a |- _ => apply axis_pos in H end. rewrite Nat.add_mod_idemp_l, Nat.add_mod_idemp_r by lia. replace (y + y0 + (a_n a - y0))%nat with (y + 1 * a_n a)%nat by lia. rewrite Nat.mod_add by lia. apply Nat.mod_small; auto.
Qed.
(** The transform of a convolution is the product of the transforms. *)
Lemma fwd_conv d h x k : Forall axis_ok d -> all_on d -> inside d k -> fwd d (cconv d h x) k = fwd d h k * fwd d x k.
Proof.
  intros F O Hk. unfold fwd, cconv.
  rewrite (bsum_ext d _ (fun m => bsum d (fun j => chi d m k * h (subi d m j) * x j))).
  2:{ intros m Hm. rewrite <- bsum_mul_l. apply bsum_ext. intros. ring. }
  rewrite bsum_swap. rewrite <- bsum_mul_l. apply bsum_ext. intros j Hj.
  rewrite <- (bsum_shift d j) by auto. rewrite (bsum_ext d _ (fun m => chi d j k * x j * (chi d m k * h m))).
  - rewrite bsum_mul_l. ring.
  - intros m Hm. rewrite addi_neg, chi_add by auto. ring.
Qed.

(** ** real arrays: half of the spectrum is stored *)
Definition hermitian (d : dims) (X : array) : Prop := forall k, inside d k -> X (negi d k) = conj (X k).
(** a one-dimensional spectrum from its half (FFTW, c2r): the imaginary parts of the first and middle elements are ignored *)
Definition complete (n : nat) (h : nat -> K) (k : nat) : K :=
  if (Nat.eqb k 0 || Nat.eqb (2 * k) n)%bool then re (h k) else if 2 * k <? n then h k else conj (h (n - k)%nat).
(** r2c and c2r: the half spectrum has a last axis of length n / 2 + 1; outside of it, the stored elements are unknown (junk) *)
Definition r2c (d : dims) (junk x : array) : array := fun k =>
  match d, k with a :: _, i :: _ => if i <=? a_n a / 2 then fwd d x k else junk k | _, _ => re (x []) end.
Definition c2r (d : dims) (H : array) : array := fun j =>
  match d, j with
  | a :: d', m :: l => sum (a_n a) (fun k => complete (a_n a) (fun k' => bwd d' (fun l' => H (k' :: l')) l) k * conj (chi1 a m k))
  | _, _ => re (H [])
  end.
(** two half spectra with the same stored elements *)
Definition half_eq (d : dims) (X Y : array) : Prop :=
  forall k, inside d k -> match d, k with a :: _, i :: _ => i <= a_n a / 2 -> X k = Y k | _, _ => X k = Y k end.

Lemma fwd_hermitian d x : Forall axis_ok d -> all_on d -> (forall j, inside d j -> is_real (x j)) -> hermitian d (fwd d x).
Proof.
  intros F O R k Hk. unfold fwd. rewrite conj_bsum. apply bsum_ext. intros j Hj. rewrite conj_mul, (R j Hj). f_equal. rewrite chi_sym, chi_neg by auto. f_equal. apply chi_sym.
Qed.
Lemma complete_ext n h g k : k < n -> (forall i, i <= n / 2 -> i < n -> h i = g i) -> complete n h k = complete n g k.
Proof.
  intros Hk H. unfold complete. pose proof (Nat.div_mod n 2 ltac:(lia)). pose proof (Nat.mod_upper_bound n 2 ltac:(lia)).
  destruct (Nat.eqb_spec k 0); cbn [orb]. { rewrite H; auto; lia. } destruct (Nat.eqb_spec (2 * k) n); cbn [orb]. { rewrite H; auto; lia. }
  destruct (Nat.ltb_spec (2 * k) n); rewrite H; auto; lia.
Qed.
Lemma complete_full n (h : nat -> K) k : k < n -> (forall i, i < n -> h ((n - i) mod n)%nat = conj (h i)) -> complete n h k = h k.
Proof.
  intros Hk H. unfold complete. destruct (Nat.eqb_spec k 0) as [->|N0]; cbn [orb].
  - apply re_real. unfold is_real. rewrite <- H by lia. rewrite Nat.sub_0_r, Nat.mod_same by lia. reflexivity.
  - destruct (Nat.eqb_spec (2 * k) n); cbn [orb].
    + apply re_real. unfold is_real. rewrite <- H by lia. rewrite Nat.mod_small by lia. f_equal. lia.
    + destruct (Nat.ltb_spec (2 * k) n); auto. rewrite <- H by lia. rewrite Nat.mod_small by lia. f_equal. lia.
Qed.
Lemma c2r_ext d X Y j : Forall axis_ok d -> half_eq d X Y -> inside d j -> c2r d X j = c2r d Y j.
Proof.
  intros F E J. destruct d as [|a d']; inversion J; subst; cbn [c2r].
  - f_equal. apply (E []). constructor.
  - apply sum_ext. intros k Hk. f_equal. apply complete_ext; auto. intros i Hi Hi2. unfold bwd. apply bsum_ext. intros l1 Hl1. f_equal. apply (E (i :: l1)); auto. constructor; auto.
Qed.
Lemma c2r_bwd d X j : Forall axis_ok d -> all_on d -> hermitian d X -> inside d j -> c2r d X j = bwd d X j.
Proof.
  intros F O H J. destruct d as [|a d']; inversion J; subst; cbn [c2r].
  - cbn [bwd bsum chi]. rewrite re_real. { unfold bwd. cbn [bsum chi]. rewrite conj_1. ring. } unfold is_real. symmetry. apply (H []). constructor.
  - unfold bwd at 2. cbn [bsum]. apply sum_ext. intros k Hk. inversion F; subst. inversion O; subst. rewrite complete_full; auto.
    + unfold bwd. rewrite (rmul_comm _ (conj (chi1 a y k))), <- bsum_mul_l. apply bsum_ext. intros l1 Hl1. cbn [chi]. rewrite conj_mul. ring.
    + intros i Hi. unfold bwd. rewrite conj_bsum. rewrite <- (bsum_neg d'); auto. apply bsum_ext. intros l1 Hl1. rewrite conj_mul. f_equal.
      * rewrite (chi_sym d' l'), chi_neg, (chi_sym d' l1) by auto. reflexivity.
      * apply (H (i :: l1)). constructor; auto.
Qed.
End Dft.
Arguments axis : clear implicits.
