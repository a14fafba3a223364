(** Proofs for C39. *)
From Coq Require Import QArith Qabs Qround Lqa.
From Verif Require Import Base Algebra Dft BlockModel BlockSpec DiagModel DiagSpec DiagProofs DiagRules PowModel PowSpec.
Local Open Scope nat_scope.

(** ** Integer exponents *)
Lemma np_round_int z : np_round (inject_Z z) = z.
Proof.
  unfold np_round. rewrite Qfloor_Z. assert (Qcompare (inject_Z z - inject_Z z) (1#2) = Lt) as ->; [|reflexivity]. apply (proj1 (Qlt_alt _ _)). lra.
Qed.
Lemma allclose_same a b : (a == b)%Q -> allclose a b = true.
Proof.
  intros H. unfold allclose. apply Qle_bool_iff. rewrite H. assert (b - b == 0)%Q as -> by ring. assert (Qabs 0 == 0)%Q as -> by reflexivity.
  pose proof (Qabs_nonneg b). lra.
Qed.
Lemma inject_eqb z c : Qeq_bool (inject_Z z) (inject_Z c) = Z.eqb z c.
Proof.
  destruct (Z.eqb_spec z c) as [->|N]. { apply Qeq_bool_iff. reflexivity. } destruct (Qeq_bool _ _) eqn:E; auto. exfalso. apply N. apply Qeq_bool_iff in E. apply inject_Z_injective. exact E.
Qed.
Lemma linear_pow_int z : linear_pow (Int z) = Ok (if (z =? -1)%Z then Inverse else if (z =? 0)%Z then One else if (z =? 1)%Z then Self else if (0 <? z)%Z then Copies (Z.to_nat z) else InverseCopies (Z.to_nat (- z))).
Proof.
  unfold linear_pow. cbn [value]. rewrite np_round_int, allclose_same by reflexivity. cbn [negb].
  change (-1)%Q with (inject_Z (-1)). change 0%Q with (inject_Z 0). change 1%Q with (inject_Z 1). rewrite !inject_eqb.
  repeat match goal with |- context [if ?c then _ else _] => destruct c end; reflexivity.
Qed.

Section Monoid.
Context {M : Type} (mul : M -> M -> M) (e : M) (f g : M).
Lemma fold_times k h : fold_right mul e (repeat h k) = times mul e k h.
Proof. induction k; cbn; congruence. Qed.
Lemma meaning_int z p : mul f e = f -> mul g e = g -> linear_pow (Int z) = Ok p -> meaning mul e f g p = zpower mul e f g z.
Proof.
  intros Ef Eg H. rewrite linear_pow_int in H. injection H as <-. unfold zpower.
  destruct (Z.eqb_spec z (-1)) as [->|]. { cbn. auto. } destruct (Z.eqb_spec z 0) as [->|]. { reflexivity. } destruct (Z.eqb_spec z 1) as [->|]. { cbn. auto. }
  destruct (Z.ltb_spec 0 z); destruct (Z.leb_spec 0 z); try lia; cbn [meaning]; apply fold_times.
Qed.
Context (assoc : forall a b c, mul a (mul b c) = mul (mul a b) c) (el : forall a, mul e a = a) (fg : mul f g = e) (gf : mul g f = e).
Lemma zpower_succ z : zpower mul e f g (z + 1) = mul f (zpower mul e f g z).
Proof.
  unfold zpower. destruct (Z.leb_spec 0 z); destruct (Z.leb_spec 0 (z + 1)); try lia.
  - replace (Z.to_nat (z + 1)) with (S (Z.to_nat z)) by lia. reflexivity.
  - replace (Z.to_nat (z + 1)) with 0 by lia. replace (Z.to_nat (- z)) with 1 by lia. cbn [times]. rewrite assoc, fg, el. reflexivity.
  - replace (Z.to_nat (- z)) with (S (Z.to_nat (- (z + 1)))) by lia. cbn [times]. rewrite assoc, fg, el. reflexivity.
Qed.
Lemma zpower_pred z : zpower mul e f g (z - 1) = mul g (zpower mul e f g z).
Proof. replace z with ((z - 1) + 1)%Z at 2 by lia. rewrite zpower_succ, assoc, gf, el. reflexivity. Qed.
Lemma zpower_add a b : zpower mul e f g (a + b) = mul (zpower mul e f g a) (zpower mul e f g b).
Proof.
  revert a. apply Z.peano_ind.
  - change (zpower mul e f g 0) with e. rewrite el. reflexivity.
  - intros a IH. rewrite <- Z.add_1_r. replace (a + 1 + b)%Z with (a + b + 1)%Z by lia. rewrite !zpower_succ, IH, assoc. reflexivity.
  - intros a IH. rewrite <- Z.sub_1_r. replace (a - 1 + b)%Z with (a + b - 1)%Z by lia. rewrite !zpower_pred, IH, assoc. reflexivity.
Qed.
End Monoid.

(** ** Diagonal operators *)
Section Diagonal.
Context {K : dring}.
Add Ring KringPow : (rth K).
Implicit Types data x y : array K.
Notation co := (coefficient (A := K)).

Lemma diagonal_shape data b : d_shape (diagonal data b) = match b with Disabled => Some (ashape data) | _ => None end.
Proof.
  unfold diagonal. set (sh := match b with Disabled => Some (ashape data) | _ => None end). destruct (inspect (ravel data)) as [[[[m z] o] other] same].
  destruct (Nat.eqb z (length (ravel data))); [reflexivity|]. destruct (Nat.eqb o (length (ravel data))); [reflexivity|].
  destruct same. { destruct (ravel data) as [|c v]; [reflexivity|]. unfold homothety. destruct (inspect [c]) as [[[[? ?] ?] ?] ?]. destruct (Nat.eqb _ 1); [reflexivity|]. destruct (Nat.eqb _ 1); reflexivity. }
  destruct (Nat.eqb (o + z) (length (ravel data))); [|reflexivity].
  unfold mask. destruct (inspect_bool _) as [[[[? ?] ?] ?] ?]. destruct (Nat.eqb _ _); [destruct b; reflexivity|]. destruct (Nat.eqb _ _); destruct b; reflexivity.
Qed.
Lemma diagonal_data data b d' b' : d_class (diagonal data b) = Diagonal d' b' -> d' = data /\ b' = scalarized (ashape data) b.
Proof.
  unfold diagonal. set (sh := match b with Disabled => Some (ashape data) | _ => None end). destruct (inspect (ravel data)) as [[[[m z] o] other] same].
  destruct (Nat.eqb z (length (ravel data))); [discriminate|]. destruct (Nat.eqb o (length (ravel data))); [discriminate|].
  destruct same. { destruct (ravel data) as [|c v]; [discriminate|]. unfold homothety. destruct (inspect [c]) as [[[[? ?] ?] ?] ?]. destruct (Nat.eqb _ 1); [discriminate|]. destruct (Nat.eqb _ 1); discriminate. }
  destruct (Nat.eqb (o + z) (length (ravel data))).
  { unfold mask. destruct (inspect_bool _) as [[[[? ?] ?] ?] ?]. destruct (Nat.eqb _ _); [discriminate|]. destruct (Nat.eqb _ _); discriminate. }
  cbn [d_class]. intros H. injection H as <- <-. split; reflexivity.
Qed.
Lemma check_passes (op : diag K) x y : apply op x = Ok y -> apply op x = match d_class op with
  | Zero => Ok (Arr (ashape x) (fun _ => r0)) | Identity => Ok x | Homothety c => diagonal_direct rmul (scalar c) Scalar x | Mask m b => mask_direct m b x | Diagonal data b => diagonal_direct rmul data b x end.
Proof. unfold apply. destruct (match d_shape op with Some s => _ | None => _ end); [reflexivity|discriminate]. Qed.
(** the coefficients of an operator that became a homothety or an identity *)
Lemma same_coefficient data b x c : fits b (ashape data) (ashape x) -> d_class (diagonal data b) = Homothety c -> forall idx, inside (ashape x) idx -> co b data idx = c.
Proof.
  intros F Hc idx I. destruct (apply_diagonal data b (Arr (ashape x) (fun _ => r1)) F) as (y & E & [_ Y]). pose proof (check_passes _ _ _ E) as E'. rewrite Hc in E'. rewrite E in E'.
  destruct (direct_ok rmul (scalar c) Scalar (Arr (ashape x) (fun _ => (r1 : K)))) as (y' & Ey & [_ Y']); [exact Logic.I|]. assert (Ok y = Ok y') as E2 by (rewrite E'; exact Ey). injection E2 as <-.
  cbn [ashape aval] in *. specialize (Y idx I). specialize (Y' idx I). rewrite Y in Y'. change (coefficient Scalar (scalar c) idx) with c in Y'.
  assert (rmul (co b data idx) r1 = co b data idx) as <- by ring. rewrite Y'. ring.
Qed.
Lemma one_coefficient data b x : fits b (ashape data) (ashape x) -> d_class (diagonal data b) = Identity -> forall idx, inside (ashape x) idx -> co b data idx = r1.
Proof.
  intros F Hc idx I. destruct (apply_diagonal data b (Arr (ashape x) (fun _ => r1)) F) as (y & E & [_ Y]). pose proof (check_passes _ _ _ E) as E'. rewrite Hc in E'. rewrite E in E'.
  injection E' as ->. cbn [ashape aval] in *. specialize (Y idx I). rewrite Y. ring.
Qed.

Lemma repeated_ok (f : array K -> result (array K)) (c : list nat -> K) s : (forall x, ashape x = s -> exists y, f x = Ok y /\ elementwise (fun idx v => rmul (c idx) v) x y) ->
  forall k x, ashape x = s -> exists y, repeated f k x = Ok y /\ elementwise (fun idx v => rmul (rpow (c idx) k) v) x y.
Proof.
  intros H k x Ex. induction k as [|k IH]; cbn [repeated].
  - exists x. split; [reflexivity|]. apply elementwise_id. intros idx I. cbn [rpow]. ring.
  - destruct IH as (y & -> & [Y1 Y2]). cbn [rbind]. destruct (H y) as (z & -> & [Z1 Z2]); [congruence|]. exists z. split; [reflexivity|]. split; [congruence|].
    intros idx I. rewrite Z2 by congruence. rewrite Y2 by exact I. cbn [rpow]. ring.
Qed.
Lemma times_rpow (c : K) k : times rmul r1 k c = rpow c k.
Proof. induction k; cbn [times rpow]; congruence. Qed.
Lemma number_power_eq inv (c : K) n : number_power inv c n = if (0 <=? n)%Z then rpow c (Z.to_nat n) else rpow (inv c) (Z.to_nat (- n)).
Proof. unfold number_power, zpower. rewrite !times_rpow. reflexivity. Qed.

Lemma np_m1 inv (c : K) : number_power inv c (-1) = inv c.
Proof. rewrite number_power_eq. change (Z.to_nat (- -1)) with 1. change (0 <=? -1)%Z with false. cbv iota. cbn [rpow]. ring. Qed.
Lemma np_0 inv (c : K) : number_power inv c 0 = r1.
Proof. reflexivity. Qed.
Lemma np_1 inv (c : K) : number_power inv c 1 = c.
Proof. rewrite number_power_eq. change (Z.to_nat 1) with 1. change (0 <=? 1)%Z with true. cbv iota. cbn [rpow]. ring. Qed.

Context (inv : K -> K) (div : K -> K -> K) (div_ok : forall a c, div a c = rmul a (inv c)).

(** the new operator made of powers of the data *)
Lemma new_ok integers data b n x : fits b (ashape data) (ashape x) -> integers && (n <? 0)%Z = false ->
  exists op y, (d <- data_pow inv integers data n ;; Ok (New (diagonal d b))) = Ok (New op) /\ apply op x = Ok y /\ elementwise (fun idx v => rmul (number_power inv (co b data idx) n) v) x y.
Proof.
  intros F N. unfold data_pow. rewrite N. cbn [rbind]. eexists. 
  match goal with |- context [diagonal ?d b] => destruct (apply_diagonal d b x F) as (y & E & Y) end.
  exists y. split; [reflexivity|]. split; [exact E|]. eapply elementwise_ext; [exact Y|]. intros idx I. cbv beta. rewrite number_power_eq. reflexivity.
Qed.

Lemma diag_pow_ok integers data b n x : (r1 : K) <> r0 -> (forall c, c <> r0 -> rmul c (inv c) = r1) -> fits b (ashape data) (ashape x) ->
  (n < 0 -> (forall c, In c (ravel data) -> c <> r0) /\ ravel data <> [])%Z -> (integers = true -> -1 <= n)%Z ->
  exists p y, diag_pow inv integers (diagonal data b) n = Ok p /\ apply_power div (diagonal data b) p x = Ok y /\ elementwise (fun idx v => rmul (number_power inv (co b data idx) n) v) x y.
Proof.
  intros H10 HI F NZ NI.
  assert (A : forall x', ashape x' = ashape x -> exists y, apply (diagonal data b) x' = Ok y /\ elementwise (fun idx v => rmul (co b data idx) v) x' y) by (intros x' Ex; apply apply_diagonal; rewrite Ex; exact F).
  assert (IN : forall idx, inside (ashape x) idx -> In (co b data idx) (ravel data)) by (intros; eapply coefficient_in; eauto).
  assert (B : (n < 0)%Z -> forall x', ashape x' = ashape x -> exists y, apply_inverse div (diagonal data b) x' = Ok y /\ elementwise (fun idx v => rmul (inv (co b data idx)) v) x' y).
  { intros Hn x' Ex. destruct (NZ Hn) as [NZ1 NZ2].
    destruct (inverse_ok div H10) with (data := data) (b := b) (x := x') as (y & z & E1 & E2 & [Z1 Z2]); auto.
    { intros a c Nc. rewrite div_ok. transitivity (rmul a (rmul c (inv c))); [ring|]. rewrite HI by exact Nc. ring. }
    { rewrite Ex; exact F. }
    exists y. split; [exact E1|].
    assert (ashape y = ashape x') as Ey. { assert (fits b (ashape data) (ashape y) \/ ashape y = ashape z) as [Fy|Ey].
      { right. unfold apply in E2. destruct (match d_shape (diagonal data b) with Some s => _ | None => _ end); [|discriminate]. cbn [rbind] in E2.
        assert (U : forall (A B C : Type) (f : A -> B -> C) a b' o (r : array C), ufunc2_out f a b' o = Ok r -> ashape r = o).
        { intros A0 B0 C0 f a0 b0 o r Hu. unfold ufunc2_out in Hu. destruct (bc _ _) as [s|]; [|discriminate]. cbn [rbind] in Hu. destruct (bc _ _) as [s'|]; [|discriminate]. cbn [rbind] in Hu. destruct (shape_eqb _ _); [|discriminate]. injection Hu as <-. reflexivity. }
        assert (DD : forall d b' r, diagonal_direct rmul d b' y = Ok r -> ashape r = ashape y).
        { intros d b' r Hd. unfold diagonal_direct in Hd. destruct b'; try (apply U in Hd; exact Hd). destruct (ufunc2_out _ _ _ _) as [r'|] eqn:Er; [|discriminate]. apply U in Er. cbn [rbind] in Hd. injection Hd as <-. unfold transpose. cbn [ashape]. rewrite Er, rev_involutive. reflexivity. }
        destruct (d_class (diagonal data b)) as [| |c|m b0|d b0].
        - injection E2 as <-. reflexivity.
        - injection E2 as <-. reflexivity.
        - apply DD in E2. auto.
        - unfold mask_direct in E2. destruct b0; try (apply U in E2; auto; fail). destruct (ufunc2_out _ _ _ _) as [r'|] eqn:Er; [|discriminate]. apply U in Er. cbn [rbind] in E2. injection E2 as <-. unfold transpose. cbn [ashape]. rewrite Er, rev_involutive. reflexivity.
        - apply DD in E2. auto. }
      { destruct (apply_diagonal data b y Fy) as (z' & Ez & [S1 _]). rewrite E2 in Ez. injection Ez as <-. congruence. }
      congruence. }
    split; [exact Ey|]. intros idx I. destruct (A y) as (z' & Ez & [S1 S2]); [congruence|]. rewrite E2 in Ez. injection Ez as <-.
    specialize (S2 idx). rewrite Ey in S2. specialize (S2 I). rewrite Z1 in Z2. rewrite Z2 in S2 by exact I. rewrite S2.
    transitivity (rmul (rmul (co b data idx) (inv (co b data idx))) (aval y idx)); [|ring]. rewrite HI by (apply NZ1, IN; rewrite <- Ex; exact I). ring. }
  assert (G : exists p y, (p <- linear_pow (Int n) ;; Ok (Generic p)) = Ok p /\ apply_power div (diagonal data b) p x = Ok y /\ elementwise (fun idx v => rmul (number_power inv (co b data idx) n) v) x y).
  { rewrite linear_pow_int. cbn [rbind]. destruct (Z.eqb_spec n (-1)) as [->|].
    { eexists. destruct (B ltac:(lia) x eq_refl) as (y & E & Y). exists y. split; [reflexivity|]. split; [exact E|]. eapply elementwise_ext; [exact Y|]. intros idx I. cbv beta. rewrite ?np_m1, ?np_0, ?np_1. ring. }
    destruct (Z.eqb_spec n 0) as [->|].
    { eexists. exists x. split; [reflexivity|]. cbn [apply_power]. rewrite apply_identity by (rewrite diagonal_shape; apply shape_of; exact F). split; [reflexivity|]. apply elementwise_id. intros idx I. rewrite ?np_m1, ?np_0, ?np_1. ring. }
    destruct (Z.eqb_spec n 1) as [->|].
    { eexists. destruct (A x eq_refl) as (y & E & Y). exists y. split; [reflexivity|]. split; [exact E|]. eapply elementwise_ext; [exact Y|]. intros idx I. cbv beta. rewrite ?np_m1, ?np_0, ?np_1. ring. }
    destruct (Z.ltb_spec 0 n).
    - destruct (repeated_ok _ (co b data) _ A (Z.to_nat n) x eq_refl) as (y & E & Y). eexists. exists y. split; [reflexivity|]. split; [exact E|]. eapply elementwise_ext; [exact Y|]. intros idx I. cbv beta. rewrite number_power_eq. destruct (Z.leb_spec 0 n); [reflexivity|lia].
    - destruct (repeated_ok _ (fun idx => inv (co b data idx)) _ (B ltac:(lia)) (Z.to_nat (- n)) x eq_refl) as (y & E & Y). eexists. exists y. split; [reflexivity|]. split; [exact E|]. eapply elementwise_ext; [exact Y|]. intros idx I. cbv beta. rewrite number_power_eq. destruct (Z.leb_spec 0 n); [lia|reflexivity]. }
  unfold diag_pow. destruct ((n =? -1)%Z || (n =? 0)%Z || (n =? 1)%Z) eqn:En; [exact G|].
  assert (N : integers && (n <? 0)%Z = false). { destruct integers; [|reflexivity]. specialize (NI eq_refl). destruct (Z.ltb_spec n 0); [|reflexivity]. destruct (Z.eqb_spec n (-1)); [discriminate|lia]. }
  destruct (d_class (diagonal data b)) as [| |c|m b0|d b0] eqn:Cl; try exact G.
  - destruct (new_ok integers (scalar r1) Scalar n x Logic.I N) as (op & y & -> & E & Y). eexists. exists y. split; [reflexivity|]. split; [exact E|]. eapply elementwise_ext; [exact Y|]. intros idx I. cbv beta.
    rewrite (coefficient_nil Scalar (scalar r1)) by reflexivity. rewrite (one_coefficient data b x F Cl idx I). reflexivity.
  - destruct (new_ok integers (scalar c) Scalar n x Logic.I N) as (op & y & -> & E & Y). eexists. exists y. split; [reflexivity|]. split; [exact E|]. eapply elementwise_ext; [exact Y|]. intros idx I. cbv beta.
    rewrite (coefficient_nil Scalar (scalar c)) by reflexivity. rewrite (same_coefficient data b x c F Cl idx I). reflexivity.
  - destruct (diagonal_data _ _ _ _ Cl) as [-> ->]. destruct (new_ok integers data (scalarized (ashape data) b) n x) as (op & y & -> & E & Y); [apply scalarized_fits; exact F|exact N|]. eexists. exists y. split; [reflexivity|]. split; [exact E|].
    eapply elementwise_ext; [exact Y|]. intros idx I. cbv beta. rewrite scalarized_coefficient. reflexivity.
Qed.
End Diagonal.

(** ** Eigendecompositions *)
Section Eigen.
Context {K : cring} (inv : K -> K) (n k : nat) (v : nat -> nat -> K).
Add Ring KringEig : (rth K).
Local Open Scope cr_scope.
Lemma eigen_ext w w' i j : (forall l, (l < k)%nat -> w l = w' l) -> eigen k v w i j = eigen k v w' i j.
Proof. intros H. unfold eigen. apply sum_ext. intros l Hl. rewrite H by exact Hl. reflexivity. Qed.
Lemma eigen_mul w w' i j : orthonormal n k v -> mmul n (eigen k v w) (eigen k v w') i j = eigen k v (fun l => w l * w' l) i j.
Proof.
  intros O. unfold mmul, eigen.
  rewrite (sum_ext n _ (fun m => sum k (fun a => sum k (fun b => (v i a * w a * (w' b * v j b)) * (v m a * v m b))))).
  2:{ intros m _. rewrite <- sum_mul_r. apply sum_ext. intros a _. rewrite <- sum_mul_l. apply sum_ext. intros b _. ring. }
  rewrite sum_swap. apply sum_ext. intros a Ha. rewrite sum_swap.
  rewrite (sum_ext k _ (fun b => (v i a * w a * (w' b * v j b)) * (if Nat.eqb a b then 1 else 0))).
  2:{ intros b Hb. rewrite sum_mul_l, O by assumption. reflexivity. }
  rewrite (sum_single k _ a Ha). { rewrite Nat.eqb_refl. ring. } intros b _ N. destruct (Nat.eqb_spec a b); [congruence|ring].
Qed.
Lemma mmul_ext (a a' b b' : nat -> nat -> K) : meq n a a' -> meq n b b' -> meq n (mmul n a b) (mmul n a' b').
Proof. intros A B i j Hi Hj. unfold mmul. apply sum_ext. intros l Hl. rewrite A, B by assumption. reflexivity. Qed.
Lemma mmul_one_r (a : nat -> nat -> K) : meq n (mmul n a mone) a.
Proof. intros i j Hi Hj. unfold mmul, mone. rewrite (sum_single n _ j Hj). { rewrite Nat.eqb_refl. ring. } intros l _ N. destruct (Nat.eqb_spec l j); [congruence|ring]. Qed.
Lemma mmul_one_l (a : nat -> nat -> K) : meq n (mmul n mone a) a.
Proof. intros i j Hi Hj. unfold mmul, mone. rewrite (sum_single n _ i Hi). { rewrite Nat.eqb_refl. ring. } intros l _ N. destruct (Nat.eqb_spec i l); [congruence|ring]. Qed.
Lemma mmul_assoc (a b c : nat -> nat -> K) : meq n (mmul n a (mmul n b c)) (mmul n (mmul n a b) c).
Proof.
  intros i j Hi Hj. unfold mmul. rewrite (sum_ext n _ (fun l => sum n (fun m => a i l * b l m * c m j))). 2:{ intros l _. rewrite <- sum_mul_l. apply sum_ext. intros m _. ring. }
  rewrite sum_swap. apply sum_ext. intros m _. rewrite <- sum_mul_r. reflexivity.
Qed.
Lemma meq_trans (a b c : nat -> nat -> K) : meq n a b -> meq n b c -> meq n a c.
Proof. intros A B i j Hi Hj. rewrite A, B by assumption. reflexivity. Qed.
Lemma meq_sym (a b : nat -> nat -> K) : meq n a b -> meq n b a.
Proof. intros A i j Hi Hj. symmetry. apply A; assumption. Qed.
Lemma eigen_times w p : orthonormal n k v -> meq n (eigen k v (fun l => rpow (w l) (S p))) (times (mmul n) mone (S p) (eigen k v w)).
Proof.
  intros O. induction p as [|p IH].
  - apply meq_sym. eapply meq_trans; [apply mmul_one_r|]. intros i j _ _. apply eigen_ext. intros l _. cbn [rpow]. ring.
  - intros i j Hi Hj. cbn [times] in *. transitivity (mmul n (eigen k v w) (eigen k v (fun l => rpow (w l) (S p))) i j).
    { rewrite eigen_mul by exact O. reflexivity. }
    apply mmul_ext; auto. intros ? ? _ _. reflexivity.
Qed.
Lemma eigen_one : meq n (mmul k v (fun l j => v j l)) mone -> meq n (eigen k v (fun _ => 1)) mone.
Proof. intros C i j Hi Hj. rewrite <- C by assumption. unfold eigen, mmul. apply sum_ext. intros l _. ring. Qed.
Lemma eigen_complete w B z : orthonormal n k v -> meq n (mmul k v (fun l j => v j l)) mone -> (forall l, (l < k)%nat -> w l * inv (w l) = 1) ->
  meq n (mmul n B (eigen k v w)) mone -> meq n (eigen k v (eigen_pow inv w z)) (zpower (mmul n) mone (eigen k v w) B z).
Proof.
  intros O C W HB.
  assert (R : meq n (mmul n (eigen k v w) (eigen k v (fun l => inv (w l)))) mone).
  { eapply meq_trans; [|apply eigen_one; exact C]. intros i j _ _. rewrite eigen_mul by exact O. apply eigen_ext. exact W. }
  assert (E : meq n (eigen k v (fun l => inv (w l))) B).
  { eapply meq_trans; [apply meq_sym, mmul_one_l|]. eapply meq_trans; [apply mmul_ext; [apply meq_sym; exact HB|intros ? ? _ _; reflexivity]|].
    eapply meq_trans; [apply meq_sym, mmul_assoc|]. eapply meq_trans; [apply mmul_ext; [intros ? ? _ _; reflexivity|exact R]|]. apply mmul_one_r. }
  assert (T : forall p, meq n (times (mmul n) mone p (eigen k v (fun l => inv (w l)))) (times (mmul n) mone p B)).
  { induction p as [|p IH]; cbn [times]; [intros ? ? _ _; reflexivity|]. apply mmul_ext; auto. }
  unfold zpower, eigen_pow. destruct (Z.leb_spec 0 z).
  - destruct (Z.to_nat z) as [|p]. { apply eigen_one. exact C. } apply eigen_times. exact O.
  - eapply meq_trans; [|apply T]. destruct (Z.to_nat (- z)) as [|p]. { apply eigen_one. exact C. } apply (eigen_times (fun l => inv (w l))). exact O.
Qed.
End Eigen.

(** ** Power operators *)
Section Powers.
Context {X : Type} (mul : X -> X -> X) (one : X) (recip sqrt square : X -> X) (pw : Q -> X -> X) (E : Q -> Prop) (V : X -> Prop) (L : power_laws mul one recip sqrt square pw E V).
Notation value := (power_value one recip sqrt square pw).
Lemma value_ok a x : E a -> plain a -> V x -> value (power_operator a) x = pw a x.
Proof.
  destruct L as (L1 & L2 & L3 & L4 & L5 & L6 & L7 & L8 & L9 & L10 & L11). intros Ea P Vx. unfold power_operator.
  destruct (allclose a (-1)) eqn:C1. { apply P in C1; [|cbn; auto]. cbn [power_value]. rewrite L6 by (auto; eapply L10; eauto). apply L11. symmetry. exact C1. }
  destruct (Qeq_bool a 0) eqn:C0. { apply Qeq_bool_iff in C0. cbn [power_value]. rewrite (L11 _ _ x C0). symmetry. apply L4. exact Vx. }
  destruct (allclose a (1#2)) eqn:C2. { apply P in C2; [|cbn; auto]. cbn [power_value]. rewrite L7 by (auto; eapply L10; eauto). apply L11. symmetry. exact C2. }
  destruct (allclose a 1) eqn:C3. { apply P in C3; [|cbn; auto]. cbn [power_value]. rewrite (L11 _ _ x C3). symmetry. apply L5. exact Vx. }
  destruct (allclose a 2) eqn:C4. { apply P in C4; [|cbn; auto]. cbn [power_value]. rewrite L8 by (auto; eapply L10; eauto). apply L11. symmetry. exact C4. }
  reflexivity.
Qed.
Lemma exponent_ok a m : plain a -> exponent (power_operator a) = Some m -> (m == a)%Q.
Proof.
  intros P. unfold power_operator.
  destruct (allclose a (-1)) eqn:C1. { apply P in C1; [|cbn; auto]. intros H. injection H as <-. symmetry. exact C1. }
  destruct (Qeq_bool a 0) eqn:C0; [discriminate|].
  destruct (allclose a (1#2)) eqn:C2. { apply P in C2; [|cbn; auto]. intros H. injection H as <-. symmetry. exact C2. }
  destruct (allclose a 1) eqn:C3; [discriminate|].
  destruct (allclose a 2) eqn:C4. { apply P in C4; [|cbn; auto]. intros H. injection H as <-. symmetry. exact C4. }
  intros H. injection H as <-. reflexivity.
Qed.
Lemma allclose_ext a b c : (a == b)%Q -> allclose a c = allclose b c.
Proof. intros H. unfold allclose. rewrite H. reflexivity. Qed.
Lemma plain_ext a b : (a == b)%Q -> plain a -> plain b.
Proof. intros H P c Hc Hb. rewrite <- H. apply P; auto. rewrite (allclose_ext _ _ _ H). exact Hb. Qed.
Lemma value_V a x : E a -> plain a -> V x -> V (value (power_operator a) x).
Proof. intros Ea P Vx. rewrite value_ok by auto. destruct L as (L1 & _). auto. Qed.
Lemma value_eq m a x : (m == a)%Q -> E a -> plain a -> V x -> value (power_operator m) x = pw a x.
Proof.
  intros H Ea P Vx. pose proof L as (L1 & L2 & L3 & L4 & L5 & L6 & L7 & L8 & L9 & L10 & L11). rewrite value_ok; [apply L11; exact H| | |exact Vx].
  - eapply L10; [symmetry; exact H|exact Ea].
  - eapply plain_ext; [symmetry; exact H|exact P].
Qed.
Lemma compose_ok a b r x : E a -> E b -> plain a -> plain b -> plain (a * b) -> V x -> power_compose (power_operator a) (power_operator b) = Some r ->
  value r x = value (power_operator a) (value (power_operator b) x).
Proof.
  intros Ea Eb Pa Pb Pab Vx H. pose proof L as (L1 & L2 & L3 & L4 & L5 & L6 & L7 & L8 & L9 & L10 & L11). unfold power_compose in H.
  destruct (exponent (power_operator a)) as [m|] eqn:Em; [|discriminate]. destruct (exponent (power_operator b)) as [m'|] eqn:Em'; [|discriminate]. injection H as <-.
  apply exponent_ok in Em; [|exact Pa]. apply exponent_ok in Em'; [|exact Pb].
  rewrite (value_eq _ (a * b)) by (first [rewrite Em, Em'; reflexivity|apply L9; solve [auto]|auto]). rewrite (value_ok a) by (auto using value_V). rewrite (value_ok b) by auto. symmetry. apply L2; auto.
Qed.
Lemma multiply_ok a b r x : E a -> E b -> plain a -> plain b -> plain (a + b) -> V x -> power_multiply (power_operator a) (power_operator b) = Some r ->
  value r x = mul (value (power_operator a) x) (value (power_operator b) x).
Proof.
  intros Ea Eb Pa Pb Pab Vx H. pose proof L as (L1 & L2 & L3 & L4 & L5 & L6 & L7 & L8 & L9 & L10 & L11). unfold power_multiply in H.
  destruct (exponent (power_operator a)) as [m|] eqn:Em; [|discriminate]. destruct (exponent (power_operator b)) as [m'|] eqn:Em'; [|discriminate]. injection H as <-.
  apply exponent_ok in Em; [|exact Pa]. apply exponent_ok in Em'; [|exact Pb].
  rewrite (value_eq _ (a + b)) by (first [rewrite Em, Em'; reflexivity|apply L9; solve [auto]|auto]). rewrite !value_ok by auto. symmetry. apply L3; auto.
Qed.
Lemma diagonal_ok a r x d : (forall u v w, mul u (mul v w) = mul v (mul u w)) -> E a -> E 1%Q -> plain a -> plain (a + 1) -> V x -> power_diagonal (power_operator a) = Some r ->
  mul d (value r x) = mul (value (power_operator a) x) (mul d x).
Proof.
  intros C Ea E1 Pa Pab Vx H. pose proof L as (L1 & L2 & L3 & L4 & L5 & L6 & L7 & L8 & L9 & L10 & L11). unfold power_diagonal in H.
  destruct (exponent (power_operator a)) as [m|] eqn:Em; [|discriminate]. injection H as <-. apply exponent_ok in Em; [|exact Pa].
  rewrite (value_eq _ (a + 1)) by (first [rewrite Em; reflexivity|apply L9; solve [auto]|auto]). rewrite value_ok by auto. rewrite C. f_equal. rewrite <- (L5 x Vx) at 3. symmetry. apply L3; auto.
Qed.
Lemma inverse_power_ok a r x : E a -> E (1 / a)%Q -> ~ (a == 0)%Q -> plain a -> plain (1 / a) -> V x -> power_inverse (power_operator a) = Some r ->
  value r (value (power_operator a) x) = x /\ value (power_operator a) (value r x) = x.
Proof.
  intros Ea E1 NZ Pa Pab Vx H. pose proof L as (L1 & L2 & L3 & L4 & L5 & L6 & L7 & L8 & L9 & L10 & L11). unfold power_inverse in H.
  destruct (exponent (power_operator a)) as [m|] eqn:Em; [|discriminate]. injection H as <-. apply exponent_ok in Em; [|exact Pa].
  assert (H : (1 / m == 1 / a)%Q) by (rewrite Em; reflexivity).
  rewrite (value_eq (1 / m) (1 / a) (value (power_operator a) x) H E1 Pab (value_V a x Ea Pa Vx)). rewrite (value_eq (1 / m) (1 / a) x H E1 Pab Vx). rewrite (value_ok a x) by auto. rewrite (value_ok a (pw (1 / a) x)) by auto.
  rewrite !L2 by auto. split; (rewrite (L11 _ 1%Q); [apply L5; exact Vx|field; exact NZ]).
Qed.
End Powers.

(** The laws for the integer exponents and the numbers that are not zero *)
Section Field.
Context {K : cring} (inv : K -> K) (H10 : (r1 : K) <> r0) (inv_ok : forall a : K, a <> r0 -> rmul a (inv a) = r1).
Add Ring KringFld : (rth K).
Local Open Scope cr_scope.
Lemma nonzero_mul (a b : K) : a <> 0 -> b <> 0 -> a * b <> 0.
Proof. intros A B H. apply B. transitivity (a * inv a * b). { rewrite inv_ok by exact A. ring. } transitivity (a * b * inv a); [ring|]. rewrite H. ring. Qed.
Lemma inv_nonzero (a : K) : a <> 0 -> inv a <> 0.
Proof. intros A H. apply H10. rewrite <- (inv_ok a A), H. ring. Qed.
Lemma inv_unique (a b : K) : a <> 0 -> a * b = 1 -> b = inv a.
Proof. intros A H. transitivity (a * inv a * b). { rewrite inv_ok by exact A. ring. } transitivity (a * b * inv a); [ring|]. rewrite H. ring. Qed.
Lemma np_succ (x : K) z : x <> 0 -> number_power inv x (z + 1) = x * number_power inv x z.
Proof. intros N. unfold number_power. apply zpower_succ; [intros; ring|intros; ring|auto]. Qed.
Lemma np_pred (x : K) z : x <> 0 -> number_power inv x (z - 1) = inv x * number_power inv x z.
Proof. intros N. unfold number_power. apply zpower_pred; [intros; ring|intros; ring|auto|]. rewrite rmul_comm. auto. Qed.
Lemma np_add (x : K) a b : x <> 0 -> number_power inv x (a + b) = number_power inv x a * number_power inv x b.
Proof. intros N. unfold number_power. apply zpower_add; [intros; ring|intros; ring|auto|]. rewrite rmul_comm. auto. Qed.
Lemma np_nonzero (x : K) z : x <> 0 -> number_power inv x z <> 0.
Proof.
  intros N. revert z. apply Z.peano_ind. { exact H10. }
  - intros z IH. rewrite <- Z.add_1_r, np_succ by exact N. apply nonzero_mul; auto.
  - intros z IH. rewrite <- Z.sub_1_r, np_pred by exact N. apply nonzero_mul; auto using inv_nonzero.
Qed.
Lemma np_opp (x : K) z : x <> 0 -> number_power inv x (- z) = inv (number_power inv x z).
Proof. intros N. apply inv_unique; [apply np_nonzero; exact N|]. rewrite <- np_add by exact N. rewrite Z.add_opp_diag_r. reflexivity. Qed.
Lemma np_mul (x : K) a b : x <> 0 -> number_power inv x (a * b) = number_power inv (number_power inv x b) a.
Proof.
  intros N. pose proof (np_nonzero x b N) as N'. revert a. apply Z.peano_ind. { reflexivity. }
  - intros a IH. rewrite <- Z.add_1_r, np_succ by exact N'. rewrite <- IH, <- np_add by exact N. f_equal. lia.
  - intros a IH. rewrite <- Z.sub_1_r, np_pred by exact N'. rewrite <- IH, <- np_opp, <- np_add by exact N. f_equal. lia.
Qed.
Lemma field_laws sqrt : power_laws (X := K) rmul r1 inv sqrt (fun x => x * x) (fun a x => number_power inv x (Qfloor a)) (fun a => exists z, (a == inject_Z z)%Q) (fun x => x <> 0).
Proof.
  assert (F : forall a z, (a == inject_Z z)%Q -> Qfloor a = z) by (intros a z H; rewrite H; apply Qfloor_Z).
  unfold power_laws. split; [intros; apply np_nonzero; auto|].
  split. { intros a b x [z Hz] [z' Hz'] N. rewrite (F a z), (F b z'), (F (a * b)%Q (z * z')%Z) by (auto; rewrite Hz, Hz', inject_Z_mult; reflexivity). symmetry. apply np_mul. exact N. }
  split. { intros a b x [z Hz] [z' Hz'] N. rewrite (F a z), (F b z'), (F (a + b)%Q (z + z')%Z) by (auto; rewrite Hz, Hz', inject_Z_plus; reflexivity). symmetry. apply np_add. exact N. }
  split; [intros x N; reflexivity|]. split. { intros x N. change (x * 1 = x). ring. }
  split. { intros _ x N. change (inv x = inv x * 1). ring. }
  split. { intros [z Hz]. exfalso. unfold Qeq, inject_Z in Hz. cbn in Hz. lia. }
  split. { intros _ x N. change (x * x = x * (x * 1)). ring. }
  split. { intros a b [z Hz] [z' Hz']. split; [exists (z * z')%Z; rewrite Hz, Hz', inject_Z_mult|exists (z + z')%Z; rewrite Hz, Hz', inject_Z_plus]; reflexivity. }
  split. { intros a b H [z Hz]. exists z. rewrite <- H. exact Hz. } intros a b x H. rewrite H. reflexivity.
Qed.
End Field.

(** np.round *)
Lemma np_round_nearest q : (Qabs (q - inject_Z (np_round q)) <= 1#2)%Q /\ ((Qabs (q - inject_Z (np_round q)) == 1#2)%Q -> Z.even (np_round q) = true).
Proof.
  pose proof (Qfloor_le q) as L. pose proof (Qlt_floor q) as U. rewrite inject_Z_plus in U. change (inject_Z 1) with 1%Q in U. unfold np_round. set (f := Qfloor q) in *.
  destruct (Qcompare_spec (q - inject_Z f) (1#2)) as [E|E|E].
  - destruct (Z.even f) eqn:V.
    + split; [|intros _; exact V]. rewrite E. apply Qle_refl.
    + split; [|intros _; replace (f + 1)%Z with (Z.succ f) by ring; rewrite Z.even_succ, <- Z.negb_even, V; reflexivity].
      rewrite inject_Z_plus. change (inject_Z 1) with 1%Q. setoid_replace (q - (inject_Z f + 1))%Q with (-(1#2))%Q by lra. apply Qle_refl.
  - rewrite Qabs_pos by lra. split; [lra|]. intros C. lra.
  - rewrite inject_Z_plus. change (inject_Z 1) with 1%Q. rewrite Qabs_neg by lra. split; [lra|]. intros C. lra.
Qed.
