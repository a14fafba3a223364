(** C39: powers of operators. *)
From Coq Require Import QArith Qabs Qcanon Lqa Reals Qreals Rpower.
From Verif Require Import Base Algebra Dft BlockModel BlockSpec DiagModel DiagSpec DiagProps PowModel PowSpec PowProofs.
Local Open Scope nat_scope.

(** For an integer exponent z, op ** z is the product of z operators, or of -z inverses, whatever the operators are: [mul] is the composition, [e] the identity,
    [f] the operator and [g] its inverse. *)
Theorem C39_integer : forall (M : Type) (mul : M -> M -> M) (e f g : M) z, mul f e = f -> mul g e = g ->
  exists p, linear_pow (Int z) = Ok p /\ meaning mul e f g p = zpower mul e f g z.
Proof. intros M mul e f g z Ef Eg. eexists. split; [apply linear_pow_int|]. apply meaning_int; auto. apply linear_pow_int. Qed.
Example C39_integer_example : linear_pow (Int 3) = Ok (Copies 3) /\ linear_pow (Int (-2)) = Ok (InverseCopies 2) /\ zpower Z.add 0%Z 5%Z (-5)%Z 3 = 15%Z /\ zpower Z.add 0%Z 5%Z (-5)%Z (-2) = (-10)%Z.
Proof. vm_compute. auto. Qed.

(** op ** (a + b) is op ** a times op ** b, if [g] is the inverse of [f]. *)
Theorem C39_sum : forall (M : Type) (mul : M -> M -> M) (e f g : M) a b p q r, (forall x y z, mul x (mul y z) = mul (mul x y) z) -> (forall x, mul e x = x) -> (forall x, mul x e = x) ->
  mul f g = e -> mul g f = e -> linear_pow (Int a) = Ok p -> linear_pow (Int b) = Ok q -> linear_pow (Int (a + b)) = Ok r -> meaning mul e f g r = mul (meaning mul e f g p) (meaning mul e f g q).
Proof. intros M mul e f g a b p q r A E1 E2 I1 I2 P Q R. rewrite (meaning_int mul e f g a p), (meaning_int mul e f g b q), (meaning_int mul e f g (a + b) r) by auto. apply zpower_add; auto. Qed.
Example C39_sum_example : meaning Z.add 0%Z 5%Z (-5)%Z (Copies 3) = Z.add (meaning Z.add 0%Z 5%Z (-5)%Z (Copies 5)) (meaning Z.add 0%Z 5%Z (-5)%Z (InverseCopies 2)).
Proof. vm_compute. auto. Qed.

(** An exponent which is not close to an integer is refused; one that is accepted is an integer, and gives the corresponding power. *)
Theorem C39_rejects : forall n, (forall z, allclose (value n) (inject_Z z) = false) -> linear_pow n = Raise ValueError.
Proof. intros n H. unfold linear_pow. rewrite H. reflexivity. Qed.
(** numpy.round, used for this test: the nearest integer, the even one if there are two *)
Theorem C39_round : forall q, (Qabs (q - inject_Z (np_round q)) <= 1 # 2)%Q /\ ((Qabs (q - inject_Z (np_round q)) == 1 # 2)%Q -> Z.even (np_round q) = true).
Proof. exact np_round_nearest. Qed.
Theorem C39_accepts : forall n p, linear_pow n = Ok p -> exists z, (value n == inject_Z z)%Q /\ linear_pow (Int z) = Ok p.
Proof.
  intros [z|q] p H. { exists z. split; [reflexivity|exact H]. } unfold linear_pow in H. cbn [value] in *. destruct (negb _); [discriminate|].
  destruct (Qeq_bool q (-1)) eqn:E1. { apply Qeq_bool_iff in E1. exists (-1)%Z. split; [exact E1|]. exact H. }
  destruct (Qeq_bool q 0) eqn:E2. { apply Qeq_bool_iff in E2. exists 0%Z. split; [exact E2|]. exact H. }
  destruct (Qeq_bool q 1) eqn:E3. { apply Qeq_bool_iff in E3. exists 1%Z. split; [exact E3|]. exact H. } discriminate.
Qed.
Example C39_rejects_example : linear_pow (Float (5#2)) = Raise ValueError /\ linear_pow (Float 1) = Ok Self /\ linear_pow (Float (-1)) = Ok Inverse.
Proof. vm_compute. auto. Qed.
(** Finding: a float equal to an integer is refused with a TypeError. *)
Theorem C39_float_refuted : linear_pow (Float 2) = Raise TypeError /\ linear_pow (Float (-3)) = Raise TypeError.
Proof. vm_compute. auto. Qed.

(** The power of a diagonal operator multiplies by the powers of the coefficients, whatever the broadcast and the classes of the operators are.  If the coefficients
    are not integers, or -1 is the least exponent. *)
Theorem C39_diagonal : forall (K : dring) (inv : K -> K) (div : K -> K -> K), (forall a c, div a c = rmul a (inv c)) -> (r1 : K) <> r0 -> (forall c, c <> r0 -> rmul c (inv c) = r1) ->
  forall integers (data : array K) b n x, fits b (ashape data) (ashape x) ->
  (n < 0 -> (forall c, In c (ravel data) -> c <> r0) /\ ravel data <> [])%Z -> (integers = true -> -1 <= n)%Z ->
  exists p y, diag_pow inv integers (diagonal data b) n = Ok p /\ apply_power div (diagonal data b) p x = Ok y /\ elementwise (fun idx v => rmul (number_power inv (coefficient b data idx) n) v) x y.
Proof. intros K inv div HD H10 HI integers data b n x. apply diag_pow_ok; auto. Qed.
Example C39_diagonal_example : let op := diagonal (qvec [Q2Qc 2; Q2Qc (-1)]) Leftward in
  match diag_pow (K := QD) Qcinv false op (-3) with Ok p => match apply_power (K := QD) Qcdiv op p (qvec [Q2Qc 16; Q2Qc 5]) with Ok y => map this (ravel y) | _ => [] end | _ => [] end = [2%Q; (-5)%Q] /\
  fits Leftward [2] [2] /\ (r1 : QD) <> r0 /\ (forall c : QD, c <> r0 -> rmul c (Qcinv c : QD) = r1).
Proof. split; [vm_compute; reflexivity|]. split; [cbn; auto|]. split; [discriminate|]. intros c N. apply Qcmult_inv_r. exact N. Qed.
(** It is the repeated operator. *)
Theorem C39_diagonal_repeated : forall (K : dring) (inv : K -> K) (div : K -> K -> K), (forall a c, div a c = rmul a (inv c)) -> (r1 : K) <> r0 -> (forall c, c <> r0 -> rmul c (inv c) = r1) ->
  forall integers (data : array K) b n x, fits b (ashape data) (ashape x) ->
  exists p y y', diag_pow inv integers (diagonal data b) (Z.of_nat n) = Ok p /\ apply_power div (diagonal data b) p x = Ok y /\ repeated (apply (diagonal data b)) n x = Ok y' /\ aeq y y'.
Proof.
  intros K inv div HD H10 HI integers data b n x F. destruct (diag_pow_ok inv div HD integers data b (Z.of_nat n) x H10 HI F) as (p & y & P & Y & [S1 S2]); [lia|lia|].
  destruct (repeated_ok (apply (diagonal data b)) (coefficient b data) (ashape x)) with (k := n) (x := x) as (y' & Y' & [S1' S2']); [|reflexivity|].
  { intros x' E. apply DiagProofs.apply_diagonal. rewrite E. exact F. }
  exists p, y, y'. split; [exact P|]. split; [exact Y|]. split; [exact Y'|]. split; [congruence|]. intros idx I. rewrite S1 in I. rewrite S2, S2' by exact I. rewrite number_power_eq.
  destruct (Z.leb_spec 0 (Z.of_nat n)); [|lia]. rewrite Nat2Z.id. reflexivity.
Qed.
Example C39_diagonal_repeated_example : let op := diagonal (vec [2; 0; -1]%Z) Disabled in
  elements (p <- diag_pow (K := ZD) (fun c => c) true op 3 ;; apply_power (K := ZD) Z.mul op p (vec [1; 2; 3]%Z)) = elements (repeated (apply op) 3 (vec [1; 2; 3]%Z)).
Proof. vm_compute. auto. Qed.
(** Finding: with integers, and in particular for the identity made without a dtype, exponents below -1 are refused. *)
Theorem C39_integers_refuted : forall (inv : ZD -> ZD), diag_pow inv true (identity_op None) (-2) = Raise ValueError /\ diag_pow inv true (diagonal (vec [1; -1]%Z) Disabled) (-2) = Raise ValueError.
Proof. intros. split; reflexivity. Qed.
(** Finding: the shape of the operator is lost: the power accepts an input that the operator refuses. *)
Theorem C39_shape_refuted : let op := homothety (K := ZD) 2%Z (Some [3]) in exists x p y,
  apply op x = Raise ValueError /\ diag_pow (fun c => c) true op 2 = Ok p /\ apply_power (K := ZD) Z.mul op p x = Ok y.
Proof. exists (vec [1; 2]%Z). eexists. eexists. split; [reflexivity|]. split; [vm_compute; reflexivity|]. vm_compute. reflexivity. Qed.

(** Raising the eigenvalues to a power raises V W V.T to this power, for positive exponents if the eigenvectors are orthonormal, for all of them if they also are complete
    and no eigenvalue is zero.  B is the inverse. *)
Theorem C39_eigen_positive : forall (K : cring) (inv : K -> K) n k v w p, orthonormal n k v -> 0 < p -> meq n (eigen k v (eigen_pow inv w (Z.of_nat p))) (times (mmul n) mone p (eigen k v w)).
Proof.
  intros K inv n k v w [|p] O H; [lia|]. intros i j Hi Hj. rewrite <- (eigen_times n k v w p O i j Hi Hj). apply eigen_ext. intros l _. unfold eigen_pow. destruct (Z.leb_spec 0 (Z.of_nat (S p))); [|lia]. rewrite Nat2Z.id. reflexivity.
Qed.
Theorem C39_eigen : forall (K : cring) (inv : K -> K) n k v w B z, orthonormal n k v -> meq n (mmul k v (fun l j => v j l)) mone -> (forall l, l < k -> rmul (w l) (inv (w l)) = r1) ->
  meq n (mmul n B (eigen k v w)) mone -> meq n (eigen k v (eigen_pow inv w z)) (zpower (mmul n) mone (eigen k v w) B z).
Proof. intros K inv n k v w B z. apply eigen_complete. Qed.
Definition rot (i j : nat) : QD := nth (2 * i + j) [Q2Qc (3#5); Q2Qc (-4#5); Q2Qc (4#5); Q2Qc (3#5)] 0%Qc.
Example C39_eigen_example : orthonormal 2 2 rot /\ meq 2 (mmul 2 rot (fun l j => rot j l)) mone /\ this (eigen (K := QD) 2 rot (fun l => Q2Qc (2#1)) 0 0) = 2%Q /\
  orthonormal 2 1 (fun i (_ : nat) => rot i 0).
Proof.
  split; [|split; [|split]].
  - intros [|[|a]] [|[|b]] Ha Hb; try lia; apply Qc_is_canon; vm_compute; reflexivity.
  - intros [|[|a]] [|[|b]] Ha Hb; try lia; apply Qc_is_canon; vm_compute; reflexivity.
  - vm_compute. reflexivity.
  - intros [|a] [|b] Ha Hb; try lia; apply Qc_is_canon; vm_compute; reflexivity.
Qed.
(** Finding: for the eigsh default, some of the eigenvectors only, the power 0 is not the identity, and the power -1, given as the inverse, is not the inverse. *)
Theorem C39_truncated_refuted : exists (v : nat -> nat -> QD) (w : nat -> QD), orthonormal 2 1 v /\ w 0 <> r0 /\
  eigen 1 v (eigen_pow (K := QD) Qcinv w 0) 1 1 <> mone 1 1 /\ mmul 2 (eigen 1 v (eigen_pow (K := QD) Qcinv w (-1))) (eigen 1 v w) 1 1 <> mone 1 1.
Proof.
  exists (fun i _ => if Nat.eqb i 0 then 1%Qc else 0%Qc), (fun _ => 1%Qc). split; [|split; [discriminate|split; vm_compute; discriminate]].
  intros [|a] [|b] Ha Hb; try lia; apply Qc_is_canon; vm_compute; reflexivity.
Qed.

(** The operator x -> x ** n: it computes the power for the exponents that are not merely close to the special ones; its compositions, its products and its inverses
    are simplified into other powers that compute the same numbers, for the exponents and numbers that obey the usual laws. *)
Section Powers.
Context (X : Type) (mul : X -> X -> X) (one : X) (recip sqrt square : X -> X) (pw : Q -> X -> X) (E : Q -> Prop) (V : X -> Prop) (L : power_laws mul one recip sqrt square pw E V).
Notation value := (power_value one recip sqrt square pw).
Theorem C39_power : forall a x, E a -> plain a -> V x -> value (power_operator a) x = pw a x.
Proof. apply (value_ok mul _ _ _ _ _ _ _ L). Qed.
Theorem C39_power_nonlinear : forall f a x, E a -> plain a -> V (f x) -> nonlinear_pow one recip sqrt square pw f a x = pw a (f x).
Proof. intros f a x. apply (value_ok mul _ _ _ _ _ _ _ L). Qed.
Theorem C39_power_compose : forall a b r x, E a -> E b -> plain a -> plain b -> plain (a * b) -> V x -> power_compose (power_operator a) (power_operator b) = Some r ->
  value r x = value (power_operator a) (value (power_operator b) x).
Proof. apply (compose_ok mul _ _ _ _ _ _ _ L). Qed.
Theorem C39_power_multiply : forall a b r x, E a -> E b -> plain a -> plain b -> plain (a + b) -> V x -> power_multiply (power_operator a) (power_operator b) = Some r ->
  value r x = mul (value (power_operator a) x) (value (power_operator b) x).
Proof. apply (multiply_ok mul _ _ _ _ _ _ _ L). Qed.
Theorem C39_power_diagonal : forall a r x d, (forall u v w, mul u (mul v w) = mul v (mul u w)) -> E a -> E 1%Q -> plain a -> plain (a + 1) -> V x -> power_diagonal (power_operator a) = Some r ->
  mul d (value r x) = mul (value (power_operator a) x) (mul d x).
Proof. apply (diagonal_ok mul _ _ _ _ _ _ _ L). Qed.
(** The product s * o of two operators of which one is not linear is the element-wise product. *)
Theorem C39_star : forall (s o : factor X) x, is_linear s && is_linear o = false -> V x ->
  (forall p q, s = Pow p -> o = Pow q -> exists a b, E a /\ E b /\ plain a /\ plain b /\ plain (a + b) /\ p = power_operator a /\ q = power_operator b) ->
  let f := factor_value one recip sqrt square pw in f (star one recip sqrt square pw mul s o) x = mul (f s x) (f o x).
Proof.
  intros s o x H Vx P f. unfold star. rewrite H. destruct s as [p|s|s], o as [q|o|o]; try reflexivity.
  destruct (P p q eq_refl eq_refl) as (a & b & A & B & A' & B' & C & -> & ->). destruct (power_multiply _ _) as [r|] eqn:M; [|reflexivity].
  apply (C39_power_multiply a b r x); assumption.
Qed.
Theorem C39_power_inverse : forall a r x, E a -> E (1 / a)%Q -> ~ (a == 0)%Q -> plain a -> plain (1 / a) -> V x -> power_inverse (power_operator a) = Some r ->
  value r (value (power_operator a) x) = x /\ value (power_operator a) (value r x) = x.
Proof. apply (inverse_power_ok mul _ _ _ _ _ _ _ L). Qed.
End Powers.
(** The laws hold for the integer exponents and the nonzero elements of a field, and for all exponents and the positive real numbers. *)
Theorem C39_laws_field : forall (K : cring) (inv : K -> K) sqrt, (r1 : K) <> r0 -> (forall a : K, a <> r0 -> rmul a (inv a) = r1) ->
  power_laws (X := K) rmul r1 inv sqrt (fun x => rmul x x) (fun a x => number_power inv x (Qround.Qfloor a)) (fun a => exists z, (a == inject_Z z)%Q) (fun x => x <> r0).
Proof. intros K inv sqrt H10 HI. apply field_laws; auto. Qed.
Theorem C39_laws_real : power_laws Rmult 1%R Rinv R_sqrt.sqrt (fun x => x * x)%R (fun a x => Rpower x (Q2R a)) (fun _ => True) (fun x => 0 < x)%R.
Proof.
  unfold power_laws. split. { intros. unfold Rpower. apply exp_pos. }
  split. { intros a b x _ _ _. rewrite Rpower_mult, Q2R_mult. f_equal. apply Rmult_comm. }
  split. { intros a b x _ _ _. rewrite <- Rpower_plus, Q2R_plus. reflexivity. }
  split. { intros x V. rewrite RMicromega.Q2R_0. apply Rpower_O. exact V. }
  split. { intros x V. rewrite RMicromega.Q2R_1. apply Rpower_1. exact V. }
  split. { intros _ x V. replace (Q2R (-1)) with (- (1))%R by (unfold Q2R; cbn; field). rewrite Rpower_Ropp, Rpower_1 by exact V. reflexivity. }
  split. { intros _ x V. replace (Q2R (1#2)) with (/ 2)%R by (unfold Q2R; cbn; field). rewrite Rpower_sqrt by exact V. reflexivity. }
  split. { intros _ x V. replace (Q2R 2) with (1 + 1)%R by (unfold Q2R; cbn; field). rewrite Rpower_plus, Rpower_1 by exact V. reflexivity. }
  split; [auto|]. split; [auto|]. intros a b x H. rewrite (Qeq_eqR _ _ H). reflexivity.
Qed.
Example C39_power_example : power_operator 3 = Power 3 /\ power_operator (1#2) = Sqrt /\ power_compose (power_operator 4) (power_operator (-1#4)) = Some Reciprocal /\
  power_multiply (power_operator 4) (power_operator (-1)) = Some (Power 3) /\ power_inverse Square = Some Sqrt /\ power_diagonal Sqrt = Some (Power (3#2)).
Proof. repeat split; reflexivity. Qed.
Lemma plain_3 : plain 3 /\ plain 4 /\ plain (-1) /\ plain (1#4).
Proof. repeat split; intros c [<-|[<-|[<-|[<-|[]]]]]; vm_compute; intros H; try discriminate; reflexivity. Qed.
(** Finding: exponents merely close to special ones are replaced by them: the power 2.00001 is the square. *)
Theorem C39_close_refuted : power_operator (200001 # 100000) = Square /\ power_operator (99999 # 100000) = NoPower.
Proof. split; reflexivity. Qed.
(** Finding: the square root of the square is simplified into the identity, whatever the sign of the input is. *)
Theorem C39_root_refuted : power_compose Sqrt Square = Some NoPower /\ forall recip sqrt pw, sqrt 1%Z = 1%Z ->
  let value := power_value 1%Z recip sqrt (fun x => x * x)%Z pw in value NoPower (-1)%Z <> value Sqrt (value Square (-1)%Z).
Proof. split; [reflexivity|]. intros recip sqrt pw H. cbn. rewrite H. discriminate. Qed.
Example C39_star_case : is_linear (@Pow Q Square) && is_linear (@Pow Q Reciprocal) = false /\ power_operator 2 = Square /\ power_operator (-1) = Reciprocal /\ power_operator (1#4) = Power (1#4).
Proof. repeat split; reflexivity. Qed.
(** Finding: the product of operators is not associative: the product of the square and of the reciprocal is simplified into the identity, which is linear, and
    the product of the identity and a linear operator B is B instead of the element-wise product of their results.  Here B doubles its input, and
    the input is 3: Square * (Reciprocal * B) gives 9 * (1/3 * 6) = 18, and (Square * Reciprocal) * B gives 6. *)
Theorem C39_star_refuted : let value := factor_value 1%Q Qinv (fun x => x) (fun x => x * x)%Q (fun _ x => x) in
  let times := star 1%Q Qinv (fun x => x) (fun x => x * x)%Q (fun _ x => x) Qmult in let B := Linear (fun x => 2 * x)%Q in
  (value (times (times (Pow Square) (Pow Reciprocal)) B) 3 == 6 /\ value (times (Pow Square) (times (Pow Reciprocal) B)) 3 == 18)%Q.
Proof. split; vm_compute; reflexivity. Qed.

Print Assumptions C39_integer. Print Assumptions C39_sum. Print Assumptions C39_rejects. Print Assumptions C39_accepts.
Print Assumptions C39_round. Print Assumptions C39_float_refuted.
Print Assumptions C39_diagonal. Print Assumptions C39_diagonal_repeated. Print Assumptions C39_integers_refuted. Print Assumptions C39_shape_refuted.
Print Assumptions C39_eigen_positive. Print Assumptions C39_eigen. Print Assumptions C39_truncated_refuted.
Print Assumptions C39_power. Print Assumptions C39_power_nonlinear. Print Assumptions C39_power_compose. Print Assumptions C39_power_multiply. Print Assumptions C39_power_diagonal. Print Assumptions C39_power_inverse.
Print Assumptions C39_laws_field. Print Assumptions C39_laws_real. Print Assumptions C39_close_refuted. Print Assumptions C39_root_refuted. Print Assumptions C39_star_refuted. Print Assumptions C39_star.
