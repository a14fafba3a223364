(** Proofs about spherical coordinates *)
From Coq Require Import Reals Ratan Rtrigo1 Lra Psatz Ascii String.
From Verif Require Import Base SphereModel SphereSpec.
Local Open Scope R_scope.

Lemma sqrt_quot r x y : 0 < x -> 0 < r -> r * r = x * x + y * y -> sqrt (1 + (y / x)²) = r / x.
Proof.
  intros Hx Hr E. replace (1 + (y / x)²) with ((r / x)²) by (unfold Rsqr; apply Rmult_eq_reg_r with (x * x); [|nra]; field_simplify; nra). apply sqrt_Rsqr. apply Rlt_le, Rdiv_lt_0_compat; auto.
Qed.
Lemma atan_pos r x y : 0 < x -> 0 < r -> r * r = x * x + y * y -> cos (atan (y / x)) = x / r /\ sin (atan (y / x)) = y / r.
Proof.
  intros Hx Hr E. rewrite cos_atan, sin_atan, (sqrt_quot r x y) by auto. split; field; lra.
Qed.
(** The angle of a vector of the plane *)
Lemma arctan2_polar r x y : 0 < r -> r * r = x * x + y * y -> r * cos (arctan2 y x) = x /\ r * sin (arctan2 y x) = y /\ - PI < arctan2 y x <= PI.
Proof.
  intros Hr E. unfold arctan2. assert (P := PI_RGT_0). assert (B := atan_bound (y / x)). destruct (Rlt_dec 0 x) as [Hx|Hx].
  - destruct (atan_pos r x y Hx Hr E) as (-> & ->). split; [field; lra|]. split; [field; lra|lra].
  - destruct (Rlt_dec x 0) as [Hx'|Hx'].
    + destruct (atan_pos r (- x) (- y) ltac:(lra) Hr ltac:(lra)) as (C & S). replace (- y / - x) with (y / x) in C, S by (field; lra).
      destruct (Rle_dec 0 y) as [Hy|Hy].
      * rewrite neg_cos, neg_sin, C, S. split; [field; lra|]. split; [field; lra|]. split; [lra|].
        assert (y / x <= 0) by (unfold Rdiv; assert (/ x < 0) by (apply Rinv_lt_0_compat; auto); nra).
        assert (A : atan (y / x) <= 0). { rewrite <- atan_0. destruct (Req_dec (y / x) 0) as [->|N]; [lra|]. left. apply atan_increasing. lra. } lra.
      * replace (atan (y / x) - PI) with (atan (y / x) + PI - 2 * PI) by lra. rewrite <- (cos_period (atan (y / x) + PI - 2 * PI) 1), <- (sin_period (atan (y / x) + PI - 2 * PI) 1).
        replace (atan (y / x) + PI - 2 * PI + 2 * INR 1 * PI) with (atan (y / x) + PI) by (simpl; lra). rewrite neg_cos, neg_sin, C, S. split; [field; lra|]. split; [field; lra|]. split; [|lra].
        assert (0 < y / x). { replace (y / x) with ((- y) / (- x)) by (field; lra). apply Rdiv_lt_0_compat; lra. }
        assert (A : 0 < atan (y / x)). { rewrite <- atan_0. apply atan_increasing. lra. } lra.
    + assert (x = 0) by lra. subst x. destruct (Rlt_dec 0 y) as [Hy|Hy].
      * rewrite cos_PI2, sin_PI2. assert (r = y) by nra. lra.
      * destruct (Rlt_dec y 0) as [Hy'|Hy']; [rewrite cos_neg, sin_neg, cos_PI2, sin_PI2; assert (r = - y) by nra; lra|]. assert (y = 0) by lra. subst y. nra.
Qed.
Lemma arctan2_zero : arctan2 0 0 = 0.
Proof. unfold arctan2. repeat (destruct Rlt_dec; try lra). Qed.
(** The azimuth, between 0 and 2 pi *)
Definition azimuth (y x : R) : R := if Rlt_dec (arctan2 y x) 0 then arctan2 y x + 2 * PI else arctan2 y x.
Lemma azimuth_polar r x y : 0 <= r -> r * r = x * x + y * y -> r * cos (azimuth y x) = x /\ r * sin (azimuth y x) = y /\ azimuth_ok (azimuth y x).
Proof.
  intros Hr E. assert (P := PI_RGT_0). unfold azimuth, azimuth_ok. destruct Hr as [Hr|Hr].
  - destruct (arctan2_polar r x y Hr E) as (C & S & B). destruct (Rlt_dec (arctan2 y x) 0) as [L|L].
    + assert (C2 := cos_period (arctan2 y x) 1). assert (S2 := sin_period (arctan2 y x) 1). replace (arctan2 y x + 2 * INR 1 * PI) with (arctan2 y x + 2 * PI) in C2, S2 by (simpl; lra). rewrite C2, S2. lra.
    + lra.
  - subst r. assert (x = 0 /\ y = 0) as (-> & ->) by nra. rewrite arctan2_zero. destruct (Rlt_dec 0 0); lra.
Qed.
Lemma cos_one t : - (2 * PI) < t < 2 * PI -> cos t = 1 -> t = 0.
Proof.
  intros B C. replace t with (2 * (t / 2)) in C by field. rewrite cos_2a_sin in C. assert (S : sin (t / 2) = 0) by nra. destruct (Rtotal_order t 0) as [H|[H|H]]; auto.
  - assert (0 < sin (- (t / 2))) by (apply sin_gt_0; lra). rewrite sin_neg in H0. lra.
  - assert (0 < sin (t / 2)) by (apply sin_gt_0; lra). lra.
Qed.
Lemma same_angle p q : azimuth_ok p -> azimuth_ok q -> cos p = cos q -> sin p = sin q -> p = q.
Proof.
  unfold azimuth_ok. intros Hp Hq C S. assert (cos (p - q) = 1). { rewrite cos_minus, C, S. assert (X := sin2_cos2 q). unfold Rsqr in X. lra. }
  assert (p - q = 0) by (apply cos_one; [lra|auto]). lra.
Qed.
Lemma azimuth_of r p : 0 < r -> azimuth_ok p -> azimuth (r * sin p) (r * cos p) = p.
Proof.
  intros Hr Hp. assert (E : r * r = r * cos p * (r * cos p) + r * sin p * (r * sin p)). { assert (X := sin2_cos2 p). unfold Rsqr in X. replace (r * cos p * (r * cos p) + r * sin p * (r * sin p)) with (r * r * (sin p * sin p + cos p * cos p)) by ring. rewrite X. ring. }
  destruct (azimuth_polar r (r * cos p) (r * sin p) ltac:(lra) E) as (C & S & B). apply same_angle; auto; apply Rmult_eq_reg_l with r; auto; lra.
Qed.

Lemma valid_conv c : In c CONVENTIONS <-> c = "zenith,azimuth"%string \/ c = "azimuth,zenith"%string \/ c = "elevation,azimuth"%string \/ c = "azimuth,elevation"%string.
Proof. cbn. intuition. Qed.
Lemma describes_s2c c a : In c CONVENTIONS -> describes c a (s2c_point c a).
Proof.
  destruct a as [a b]. intros H. apply valid_conv in H.
  assert (Q : forall t, 0.5 * PI - t = PI / 2 - t) by (intros; lra).
  destruct H as [->|[->|[->| ->]]]; unfold s2c_point; cbn; rewrite ?Q, ?sin_shift, ?cos_shift; constructor.
Qed.
Lemma describes_unit c a v : describes c a v -> unit v.
Proof.
  intros [t p|t p|t p|t p]; cbn; assert (X := sin2_cos2 t); assert (Y := sin2_cos2 p); unfold Rsqr in X, Y.
  1,2: replace (sin t * cos p * (sin t * cos p) + sin t * sin p * (sin t * sin p)) with (sin t * sin t * (sin p * sin p + cos p * cos p)) by ring; rewrite Y; lra.
  all: replace (cos t * cos p * (cos t * cos p) + cos t * sin p * (cos t * sin p)) with (cos t * cos t * (sin p * sin p + cos p * cos p)) by ring; rewrite Y; lra.
Qed.
Lemma describes_in c a v : describes c a v -> In c CONVENTIONS.
Proof. intros H. apply valid_conv. destruct H; auto. Qed.
Lemma describes_fun c a v w : describes c a v -> describes c a w -> v = w.
Proof. intros [t p|t p|t p|t p] H; inversion H; reflexivity. Qed.
(** The angles of a unit vector *)
Lemma polar x y z : x * x + y * y + z * z = 1 -> sin (acos z) * cos (azimuth y x) = x /\ sin (acos z) * sin (azimuth y x) = y /\ cos (acos z) = z /\ zenith_ok (acos z) /\ azimuth_ok (azimuth y x).
Proof.
  intros E. assert (B : -1 <= z <= 1) by nra. rewrite sin_acos, cos_acos by auto. assert (X : 0 <= 1 - z²) by (unfold Rsqr; nra).
  destruct (azimuth_polar (sqrt (1 - z²)) x y) as (C & S & A). { apply sqrt_pos. } { rewrite sqrt_sqrt by auto. unfold Rsqr. lra. }
  split; [exact C|]. split; [exact S|]. split; [reflexivity|]. split; [apply acos_bound|exact A].
Qed.
Lemma elev z : elevation_ok (PI / 2 - acos z).
Proof. assert (B := acos_bound z). unfold elevation_ok. lra. Qed.
Lemma c2s_point_eq c x y z : c2s_point c (x, y, z) = let o1 := if has_elevation c then PI / 2 - acos z else acos z in if azimuth_first c then (azimuth y x, o1) else (o1, azimuth y x).
Proof. reflexivity. Qed.
Lemma c2s_describes c v : In c CONVENTIONS -> unit v -> describes c (c2s_point c v) v /\ in_range c (c2s_point c v).
Proof.
  destruct v as [[x y] z]. intros H U. cbn in U. destruct (polar x y z U) as (C & S & Z & B1 & B2). apply valid_conv in H. rewrite c2s_point_eq.
  assert (D1 : (x, y, z) = direction_za (acos z) (azimuth y x)) by (unfold direction_za; congruence).
  assert (D2 : (x, y, z) = direction_ea (PI / 2 - acos z) (azimuth y x)) by (unfold direction_ea; rewrite cos_shift, sin_shift; congruence). assert (E := elev z).
  destruct H as [->|[->|[->| ->]]]; cbn; split; try (constructor; assumption).
  1,2: rewrite D1; constructor. all: rewrite D2; constructor.
Qed.
Lemma c2s_unique c a v : describes c a v -> in_range c a -> ~ pole v -> c2s_point c v = a.
Proof.
  intros D R N. assert (P := PI_RGT_0). destruct D as [t p|t p|t p|t p]; inversion R; subst; unfold direction_za, direction_ea in *; rewrite c2s_point_eq; cbn [azimuth_first has_elevation prefix index]; cbn; unfold zenith_ok, elevation_ok in *.
  1,2: assert (S : 0 < sin t) by (destruct (Req_dec t 0) as [->|]; [exfalso; apply N; cbn; rewrite sin_0; lra|]; destruct (Req_dec t PI) as [->|]; [exfalso; apply N; cbn; rewrite sin_PI; lra|]; apply sin_gt_0; lra);
    rewrite azimuth_of by auto; rewrite acos_cos by lra; reflexivity.
  all: assert (S : 0 < cos t) by (destruct (Req_dec t (PI / 2)) as [->|]; [exfalso; apply N; cbn; rewrite cos_PI2; lra|]; destruct (Req_dec t (- (PI / 2))) as [->|]; [exfalso; apply N; cbn; rewrite cos_neg, cos_PI2; lra|]; apply cos_gt_0; lra);
    rewrite azimuth_of by auto; rewrite <- (cos_shift t), acos_cos by lra; f_equal; lra.
Qed.
Lemma points3_flat l : points3 (flat3 l) = l.
Proof. induction l as [|[[x y] z] l IH]; auto. change (points3 (flat3 ((x, y, z) :: l))) with ((x, y, z) :: points3 (flat3 l)). rewrite IH. reflexivity. Qed.
Lemma points2_flat l : points2 (flat2 l) = l.
Proof. induction l as [|[x y] l IH]; auto. change (points2 (flat2 ((x, y) :: l))) with ((x, y) :: points2 (flat2 l)). rewrite IH. reflexivity. Qed.
Lemma flat3_map k l : map (fun v => k * v) (flat3 l) = flat3 (map (fun '(x, y, z) => (k * x, k * y, k * z)) l).
Proof. induction l as [|[[x y] z] l IH]; auto. change (flat3 ((x, y, z) :: l)) with ([x; y; z] ++ flat3 l). rewrite map_app, IH. reflexivity. Qed.
Lemma flat2_map k l : map (fun v => k * v) (flat2 l) = flat2 (map (scale2 k) l).
Proof. induction l as [|[x y] l IH]; auto. change (flat2 ((x, y) :: l)) with ([x; y] ++ flat2 l). rewrite map_app, IH. reflexivity. Qed.
Lemma last_snoc (s : list nat) n : valid_last n (s ++ [n]) = true.
Proof. unfold valid_last. destruct (s ++ [n]) eqn:E; [destruct s; discriminate E|]. rewrite <- E, last_last, Nat.eqb_refl. reflexivity. Qed.
Lemma valid_snoc n s : valid_last n s = true -> exists s', s = s' ++ [n].
Proof. unfold valid_last. destruct s as [|a s]; [discriminate|]. intros H. apply Nat.eqb_eq in H. exists (removelast (a :: s)). rewrite <- H. apply app_removelast_last. discriminate. Qed.
Lemma written_normalise s : written_as s (normalise s).
Proof.
  induction s as [|c s IH]; [constructor|]. cbn [normalise]. destruct (Nat.eqb_spec (Ascii.nat_of_ascii c) 32) as [E|E].
  - replace c with " "%char by (rewrite <- (Ascii.ascii_nat_embedding c), E; reflexivity). constructor; auto.
  - unfold lower_char. destruct ((65 <=? Ascii.nat_of_ascii c) && (Ascii.nat_of_ascii c <=? 90))%nat eqn:B.
    + apply andb_prop in B as (B1 & B2). apply Nat.leb_le in B1, B2. constructor; auto.
    + constructor; auto. { intros ->. apply E. reflexivity. } intros (B1 & B2). apply Nat.leb_le in B1, B2. rewrite B1, B2 in B. discriminate B.
Qed.
Lemma written_fun s n : written_as s n -> normalise s = n.
Proof.
  induction 1 as [|s n H IH|c s n N1 N2 H IH|c s n B H IH]; auto; cbn [normalise].
  - destruct (Nat.eqb_spec (Ascii.nat_of_ascii c) 32) as [E|E]; [exfalso; apply N1; rewrite <- (Ascii.ascii_nat_embedding c), E; reflexivity|]. unfold lower_char.
    destruct ((65 <=? Ascii.nat_of_ascii c) && (Ascii.nat_of_ascii c <=? 90))%nat eqn:B; [|congruence]. apply andb_prop in B as (B1 & B2). apply Nat.leb_le in B1, B2. exfalso. auto.
  - destruct (Nat.eqb_spec (Ascii.nat_of_ascii c) 32) as [E|E]; [lia|]. unfold lower_char. destruct B as (B1 & B2). apply Nat.leb_le in B1, B2. rewrite B1, B2. cbn [andb]. congruence.
Qed.
Lemma existsb_conv c : existsb (String.eqb c) CONVENTIONS = true <-> In c CONVENTIONS.
Proof.
  rewrite existsb_exists. split; [intros (x & I & E); apply String.eqb_eq in E; subst; auto|]. intros I. exists c. split; auto. apply String.eqb_refl.
Qed.
Lemma convention_ok c n : convention_of c = Ok n -> In n CONVENTIONS.
Proof. destruct c as [c|]; cbn [convention_of]; [|discriminate]. destruct (existsb _ _) eqn:E; [|discriminate]. intros X. injection X as <-. apply existsb_conv, E. Qed.
