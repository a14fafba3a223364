(** Commutative rings and finite sums over them.  Nothing here models a particular file: numbers (floating point in the
    code) are elements of an arbitrary commutative ring, so that rounding is left out. *)
From Coq Require Export Ring Ring_theory.
From Verif Require Import Base.

Record cring := {
  car :> Type;
  r0 : car; r1 : car;
  radd : car -> car -> car; rmul : car -> car -> car; rsub : car -> car -> car; ropp : car -> car;
  rth : ring_theory r0 r1 radd rmul rsub ropp eq
}.
Arguments r0 {_}. Arguments r1 {_}. Arguments radd {_}. Arguments rmul {_}. Arguments rsub {_}. Arguments ropp {_}.

Declare Scope cr_scope.
Delimit Scope cr_scope with cr.
Notation "0" := r0 : cr_scope.
Notation "1" := r1 : cr_scope.
Notation "x + y" := (radd x y) : cr_scope.
Notation "x * y" := (rmul x y) : cr_scope.
Notation "x - y" := (rsub x y) : cr_scope.
Notation "- x" := (ropp x) : cr_scope.

Definition Zring : cring :=
  {| car := Z; r0 := 0%Z; r1 := 1%Z; radd := Z.add; rmul := Z.mul; rsub := Z.sub; ropp := Z.opp; rth := Zth |}.

Section Sums.
Context {K : cring}.
Add Ring Kring : (rth K).
Local Open Scope cr_scope.

Lemma radd_0_l (x : K) : 0 + x = x. Proof. ring. Qed.
Lemma radd_0_r (x : K) : x + 0 = x. Proof. ring. Qed.
Lemma rmul_0_l (x : K) : 0 * x = 0. Proof. ring. Qed.
Lemma rmul_0_r (x : K) : x * 0 = 0. Proof. ring. Qed.
Lemma rmul_1_l (x : K) : 1 * x = x. Proof. ring. Qed.
Lemma rmul_1_r (x : K) : x * 1 = x. Proof. ring. Qed.
Lemma radd_comm (x y : K) : x + y = y + x. Proof. ring. Qed.
Lemma rmul_comm (x y : K) : x * y = y * x. Proof. ring. Qed.
Lemma radd_assoc (x y z : K) : x + (y + z) = x + y + z. Proof. ring. Qed.
Lemma rmul_assoc (x y z : K) : x * (y * z) = x * y * z. Proof. ring. Qed.

(** f 0 + ... + f (n-1) *)
Fixpoint sum (n : nat) (f : nat -> K) : K :=
  match n with O => 0 | S m => sum m f + f m end.

Lemma sum_ext n f g : (forall i, i < n -> f i = g i) -> sum n f = sum n g.
Proof. induction n; intros H; simpl; auto. rewrite IHn, H; auto. Qed.
Lemma sum_0 n : sum n (fun _ => 0) = 0.
Proof. induction n; simpl; auto. rewrite IHn; ring. Qed.
Lemma sum_zero n f : (forall i, i < n -> f i = 0) -> sum n f = 0.
Proof. intros H. rewrite (sum_ext _ _ (fun _ => 0)); auto using sum_0. Qed.
Lemma sum_add n f g : sum n (fun i => f i + g i) = sum n f + sum n g.
Proof. induction n; simpl; [ring|]. rewrite IHn; ring. Qed.
Lemma sum_sub n f g : sum n (fun i => f i - g i) = sum n f - sum n g.
Proof. induction n; simpl; [ring|]. rewrite IHn; ring. Qed.
Lemma sum_opp n f : sum n (fun i => - f i) = - sum n f.
Proof. induction n; simpl; [ring|]. rewrite IHn; ring. Qed.
Lemma sum_mul_l n c f : sum n (fun i => c * f i) = c * sum n f.
Proof. induction n; simpl; [ring|]. rewrite IHn; ring. Qed.
Lemma sum_mul_r n c f : sum n (fun i => f i * c) = sum n f * c.
Proof. induction n; simpl; [ring|]. rewrite IHn; ring. Qed.
Lemma sum_swap n m f : sum n (fun i => sum m (fun j => f i j)) = sum m (fun j => sum n (fun i => f i j)).
Proof.
  induction n; simpl. { symmetry; apply sum_0. } rewrite IHn, <- sum_add. reflexivity.
Qed.
Lemma sum_split n m f : sum (n + m) f = sum n f + sum m (fun i => f (n + i)%nat).
Proof.
  induction m; simpl. { rewrite Nat.add_0_r; ring. }
  rewrite Nat.add_succ_r; simpl. rewrite IHm; ring.
Qed.
Lemma sum_S_l n f : sum (S n) f = f 0%nat + sum n (fun i => f (S i)).
Proof. induction n; simpl in *; [ring|]. rewrite IHn; ring. Qed.
Lemma sum_single n f k : k < n -> (forall i, i < n -> i <> k -> f i = 0) -> sum n f = f k.
Proof.
  induction n; intros Hk H; [lia|]. simpl. destruct (Nat.eq_dec k n) as [->|Hn].
  - rewrite sum_zero; [ring|]. intros i Hi. apply H; lia.
  - rewrite IHn, (H n); try lia; [ring|]. intros i Hi Hik; apply H; lia.
Qed.
Lemma sum_rev n : forall f, sum n f = sum n (fun i => f (n - 1 - i)%nat).
Proof.
  induction n; intros f; auto. rewrite (sum_S_l n (fun i => f (S n - 1 - i)%nat)). replace (S n - 1 - 0)%nat with n by lia.
  rewrite (sum_ext n (fun i => f (S n - 1 - S i)%nat) (fun i => f (n - 1 - i)%nat)) by (intros; f_equal; lia).
  rewrite <- IHn. simpl. ring.
Qed.
Lemma sum_if n (b : nat -> bool) f : sum n (fun i => if b i then f i else 0) = sum n (fun i => (if b i then 1 else 0) * f i).
Proof. apply sum_ext; intros. destruct (b i); ring. Qed.

(** The sum of a list. *)
Definition lsum (l : list K) : K := fold_right radd 0 l.
Lemma lsum_app l l' : lsum (l ++ l') = lsum l + lsum l'.
Proof. unfold lsum. induction l; simpl; [ring|]. rewrite IHl; ring. Qed.
Lemma lsum_cons a l : lsum (a :: l) = a + lsum l.
Proof. reflexivity. Qed.
Lemma lsum_map_seq n f : lsum (map f (seq 0 n)) = sum n f.
Proof. induction n; auto. rewrite seq_S, map_app, lsum_app, IHn; simpl; ring. Qed.
Lemma lsum_nth l d : lsum l = sum (length l) (fun i => nth i l d).
Proof.
  induction l as [|a l IH]; auto. cbn [length]. rewrite sum_S_l, lsum_cons, IH; simpl. reflexivity.
Qed.

(** The (bilinear) dot product of two lists. *)
Definition ldot (x y : list K) : K := lsum (map (fun p => fst p * snd p) (combine x y)).
Lemma ldot_cons a x b y : ldot (a :: x) (b :: y) = a * b + ldot x y.
Proof. reflexivity. Qed.
Lemma ldot_nil_r x : ldot x [] = 0.
Proof. destruct x; reflexivity. Qed.
Lemma ldot_app x y x' y' : length x = length y -> ldot (x ++ x') (y ++ y') = ldot x y + ldot x' y'.
Proof.
  revert y; induction x as [|a x IH]; intros [|b y] H; simpl in H; try discriminate.
  - simpl; unfold ldot at 2; simpl; ring.
  - simpl app. rewrite !ldot_cons, IH by lia. ring.
Qed.
Lemma ldot_comm x y : ldot x y = ldot y x.
Proof.
  revert y; induction x as [|a x IH]; intros [|b y]; try reflexivity. rewrite !ldot_cons, IH. ring.
Qed.
End Sums.
