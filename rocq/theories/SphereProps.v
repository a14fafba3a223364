(** C48: cartesian and spherical coordinates *)
From Coq Require Import Reals Ratan Lra String.
From Verif Require Import Base SphereModel SphereSpec SphereProofs.
Local Open Scope R_scope.

(** The constructors accept the four conventions, whatever the case of the letters and the spaces, and nothing else *)
Theorem C48_conventions : (forall c n, convention_of (Some c) = Ok n <-> In n CONVENTIONS /\ written_as c n) /\ (forall c, (forall n, written_as c n -> ~ In n CONVENTIONS) <-> convention_of (Some c) = Raise ValueError) /\ convention_of None = Raise TypeError.
Proof.
  split; [|split; [|reflexivity]].
  - intros c n. split.
    + intros E. split; [eapply convention_ok, E|]. cbn [convention_of] in E. destruct (existsb _ _); [|discriminate E]. injection E as <-. apply written_normalise.
    + intros (I & W). apply written_fun in W. subst n. cbn [convention_of]. replace (existsb (String.eqb (normalise c)) CONVENTIONS) with true by (symmetry; apply existsb_conv, I). reflexivity.
  - intros c. cbn [convention_of]. split.
    + intros H. destruct (existsb (String.eqb (normalise c)) CONVENTIONS) eqn:E; [|reflexivity]. destruct (H _ (written_normalise c)). apply existsb_conv, E.
    + intros E n W I. apply written_fun in W. subst n. apply existsb_conv in I. rewrite I in E. discriminate E.
Qed.
(** Spherical2CartesianOperator computes the unit vectors of the given directions *)
Theorem C48_cartesian : forall c s l, In c CONVENTIONS -> exists l', call (S2C c) (s ++ [2%nat], flat2 l) = Ok (s ++ [3%nat], flat3 l') /\ Forall2 (describes c) l l' /\ Forall unit l'.
Proof.
  intros c s l H. exists (map (s2c_point c) l). split.
  - cbn [call validate reshape]. rewrite last_snoc, removelast_last, points2_flat. reflexivity.
  - split; induction l; cbn [map]; constructor; auto; [apply describes_s2c, H|eapply describes_unit, describes_s2c, H].
Qed.
(** Cartesian2SphericalOperator computes angles that describe the given unit vectors, in their usual ranges, and there are no others but at the poles *)
Theorem C48_spherical : forall c s l, In c CONVENTIONS -> Forall unit l ->
  exists l', call (C2S c) (s ++ [3%nat], flat3 l) = Ok (s ++ [2%nat], flat2 l') /\ Forall2 (fun v a => describes c a v /\ in_range c a /\ forall b, describes c b v -> in_range c b -> ~ pole v -> b = a) l l'.
Proof.
  intros c s l H U. exists (map (c2s_point c) l). split.
  - cbn [call validate reshape]. rewrite last_snoc, removelast_last, points3_flat. reflexivity.
  - induction U as [|v l Uv U IH]; cbn [map]; constructor; auto. destruct (c2s_describes c v H Uv) as (D & R). split; [exact D|]. split; [exact R|]. intros b Db Rb N. symmetry. apply c2s_unique; auto.
Qed.
(** The last dimension must be 3 for cartesian and 2 for spherical coordinates *)
Theorem C48_shapes : forall c s l, (call (C2S c) (s, l) = Raise ValueError <-> ~ exists s', s = s' ++ [3%nat]) /\ (call (S2C c) (s, l) = Raise ValueError <-> ~ exists s', s = s' ++ [2%nat]).
Proof.
  assert (Q : forall n (s : list nat) (x : array), (if valid_last n s then Ok x else Raise ValueError) = Raise ValueError <-> ~ exists s', s = s' ++ [n]).
  { intros n s x. destruct (valid_last n s) eqn:E; split; try discriminate; auto.
    - intros H. destruct H. apply valid_snoc, E.
    - intros _ (s' & ->). rewrite last_snoc in E. discriminate E. }
  intros c s l. split; apply Q.
Qed.
(** With the angles in degrees *)
Theorem C48_degrees : forall c n l s, convention_of c = Ok n ->
  (exists d r, Cartesian2Spherical c true = Ok d /\ Cartesian2Spherical c false = Ok r /\ forall l', call_product r (s ++ [3%nat], flat3 l) = Ok (s ++ [2%nat], flat2 l') -> call_product d (s ++ [3%nat], flat3 l) = Ok (s ++ [2%nat], flat2 (map (scale2 (180 / PI)) l'))) /\
  (exists d r, Spherical2Cartesian c true = Ok d /\ Spherical2Cartesian c false = Ok r /\ forall a, call_product d (s ++ [2%nat], flat2 a) = call_product r (s ++ [2%nat], flat2 (map (scale2 (PI / 180)) a))).
Proof.
  intros c n l s E. split; (do 2 eexists; (split; [unfold Cartesian2Spherical, Spherical2Cartesian; rewrite E; reflexivity|]); (split; [unfold Cartesian2Spherical, Spherical2Cartesian; rewrite E; reflexivity|])).
  - intros l' H. cbn [call_product fold_right rbind] in *. rewrite H. cbn [rbind call validate reshape]. rewrite flat2_map. reflexivity.
  - intros a. cbn [call_product fold_right rbind]. cbn [call validate reshape rbind]. rewrite flat2_map. reflexivity.
Qed.
Lemma scale_inv l : map (scale2 (PI / 180)) (map (scale2 (180 / PI)) l) = l /\ map (scale2 (180 / PI)) (map (scale2 (PI / 180)) l) = l.
Proof.
  assert (P := PI_neq0). rewrite !map_map. split; (transitivity (map (fun x => x) l); [apply map_ext; intros [a b]; unfold scale2; cbn; f_equal; field; auto|apply map_id]).
Qed.
(** The inverses: the conversion in the other direction, of the same convention and unit of angles; it gives back the unit vectors, and the angles in their usual ranges that do not describe a pole *)
Theorem C48_inverse : forall c n degrees, convention_of c = Ok n -> exists f g, Cartesian2Spherical c degrees = Ok f /\ Spherical2Cartesian c degrees = Ok g /\ inverse f = g /\ inverse g = f /\
  (forall s l, Forall unit l -> (y <- call_product f (s ++ [3%nat], flat3 l) ;; call_product g y) = Ok (s ++ [3%nat], flat3 l)) /\
  (forall s l, Forall (fun a => in_range n a /\ ~ pole (s2c_point n a)) l -> let a := if degrees then map (scale2 (180 / PI)) l else l in (y <- call_product g (s ++ [2%nat], flat2 a) ;; call_product f y) = Ok (s ++ [2%nat], flat2 a)).
Proof.
  intros c n degrees E. assert (I := convention_ok _ _ E). exists (if degrees then [Degrees; C2S n] else [C2S n]), (if degrees then [S2C n; Radians] else [S2C n]).
  split; [unfold Cartesian2Spherical; rewrite E; reflexivity|]. split; [unfold Spherical2Cartesian; rewrite E; reflexivity|]. split; [destruct degrees; reflexivity|]. split; [destruct degrees; reflexivity|].
  assert (A : forall s l, Forall unit l -> call (S2C n) (s ++ [2%nat], flat2 (map (c2s_point n) l)) = Ok (s ++ [3%nat], flat3 l)).
  { intros s l U. cbn [call validate reshape]. rewrite last_snoc, removelast_last, points2_flat, map_map. f_equal. f_equal. f_equal. rewrite <- (map_id l) at 2. apply map_ext_in. intros v Iv. rewrite Forall_forall in U.
    destruct (c2s_describes n v I (U v Iv)) as (D & _). eapply describes_fun; [apply describes_s2c, I|exact D]. }
  assert (B : forall s l, Forall (fun a => in_range n a /\ ~ pole (s2c_point n a)) l -> call (C2S n) (s ++ [3%nat], flat3 (map (s2c_point n) l)) = Ok (s ++ [2%nat], flat2 l)).
  { intros s l U. cbn [call validate reshape]. rewrite last_snoc, removelast_last, points3_flat, map_map. f_equal. f_equal. f_equal. rewrite <- (map_id l) at 2. apply map_ext_in. intros a Ia. rewrite Forall_forall in U.
    destruct (U a Ia) as (R & N). apply c2s_unique; auto. apply describes_s2c, I. }
  assert (C : forall s l, call (C2S n) (s ++ [3%nat], flat3 l) = Ok (s ++ [2%nat], flat2 (map (c2s_point n) l))) by (intros; cbn [call validate reshape]; rewrite last_snoc, removelast_last, points3_flat; reflexivity).
  assert (D : forall s l, call (S2C n) (s ++ [2%nat], flat2 l) = Ok (s ++ [3%nat], flat3 (map (s2c_point n) l))) by (intros; cbn [call validate reshape]; rewrite last_snoc, removelast_last, points2_flat; reflexivity).
  assert (Dg : forall s l, call Degrees (s, flat2 l) = Ok (s, flat2 (map (scale2 (180 / PI)) l))) by (intros; cbn [call validate reshape]; rewrite flat2_map; reflexivity).
  assert (Rd : forall s l, call Radians (s, flat2 l) = Ok (s, flat2 (map (scale2 (PI / 180)) l))) by (intros; cbn [call validate reshape]; rewrite flat2_map; reflexivity).
  split; intros s l U.
  - destruct degrees; cbn [call_product fold_right rbind]; rewrite C; cbn [rbind]; [|apply A, U]. rewrite Dg. cbn [rbind]. rewrite Rd. cbn [rbind]. rewrite (proj1 (scale_inv _)). apply A, U.
  - destruct degrees; cbv zeta; cbn [call_product fold_right rbind]; [rewrite Rd; cbn [rbind]; rewrite (proj1 (scale_inv _))|]; rewrite D; cbn [rbind]; rewrite B by exact U; cbn [rbind]; auto.
Qed.
(** The product of two conversions is replaced by the identity only if they are inverse of each other; a product of conversions of different conventions is kept. *)
Theorem C48_rule : forall c c', In c CONVENTIONS -> In c' CONVENTIONS -> (rule (C2S c) (S2C c') = Some [] <-> c = c') /\ (rule (S2C c) (C2S c') = Some [] <-> c = c') /\
  (forall l s, Forall unit l -> rule (S2C c) (C2S c') = Some [] -> call_product [S2C c; C2S c'] (s ++ [3%nat], flat3 l) = Ok (s ++ [3%nat], flat3 l)) /\
  (forall l s, Forall (fun a => in_range c a /\ ~ pole (s2c_point c a)) l -> rule (C2S c) (S2C c') = Some [] -> call_product [C2S c; S2C c'] (s ++ [2%nat], flat2 l) = Ok (s ++ [2%nat], flat2 l)).
Proof.
  intros c c' I I'. assert (Q : (if String.eqb c c' then Some [] else None : option (list op)) = Some [] <-> c = c') by (destruct (String.eqb_spec c c'); split; congruence).
  split; [exact Q|]. split; [exact Q|]. assert (E : convention_of (Some c) = Ok c) by (apply valid_conv in I; destruct I as [->|[->|[->| ->]]]; reflexivity). destruct (C48_inverse (Some c) c false E) as (f & g & Ef & Eg & _ & _ & A & B).
  unfold Cartesian2Spherical in Ef. unfold Spherical2Cartesian in Eg. rewrite E in Ef, Eg. injection Ef as <-. injection Eg as <-. split; intros l s U R; cbn [rule] in R; apply Q in R; subst c'; [exact (A s l U)|exact (B s l U)].
Qed.

(** * Examples *)
Example convention_run : convention_of (Some "Azimuth, Zenith"%string) = Ok "azimuth,zenith"%string /\ convention_of (Some "azimut,zenith"%string) = Raise ValueError. Proof. split; reflexivity. Qed.
Example unit_some : Forall unit [(0, 0, 1); (3 / 5, 0, - (4 / 5)); (- (2 / 3), 1 / 3, 2 / 3)]. Proof. repeat constructor; cbn; lra. Qed.
Example range_some : in_range "azimuth,elevation" (PI, 0) /\ ~ pole (s2c_point "azimuth,elevation" (PI, 0)).
Proof.
  assert (P := PI_RGT_0). split; [constructor; unfold elevation_ok, azimuth_ok; lra|]. unfold s2c_point. cbn. intros (X & _). replace (0.5 * PI - 0) with (PI / 2) in X by lra. rewrite sin_PI2, cos_PI in X. lra.
Qed.
Example axis_y : s2c_point "zenith,azimuth" (PI / 2, PI / 2) = (0, 1, 0).
Proof. unfold s2c_point. cbn. rewrite sin_PI2, cos_PI2. f_equal; f_equal; lra. Qed.

(** * What does not hold *)
(** The product of Cartesian2SphericalOperator and Spherical2CartesianOperator is replaced by the identity, although it brings the angles into their usual ranges: without simplification it gives the azimuth 0 at the poles, and azimuths between 0 and 2 pi. *)
Theorem C48_rule_refuted : ~ (forall c a, In c CONVENTIONS -> rule (C2S c) (S2C c) = Some [] -> c2s_point c (s2c_point c a) = a) /\ exists a, in_range "zenith,azimuth" a /\ c2s_point "zenith,azimuth" (s2c_point "zenith,azimuth" a) <> a.
Proof.
  assert (P := PI_RGT_0). assert (N : c2s_point "zenith,azimuth" (s2c_point "zenith,azimuth" (0, 1)) <> (0, 1)).
  { unfold s2c_point. cbn [azimuth_first prefix has_elevation index fst snd]. cbn. rewrite sin_0, cos_0, !Rmult_0_l, arctan2_zero. destruct (Rlt_dec 0 0); [lra|]. intros X. injection X as _ X. lra. }
  split; [intros H; apply N, (H "zenith,azimuth"%string); [left; reflexivity|reflexivity]|]. exists (0, 1). split; [|exact N]. constructor; unfold zenith_ok, azimuth_ok; try lra. assert (Q := PI2_1). lra.
Qed.

Print Assumptions C48_conventions. Print Assumptions C48_cartesian. Print Assumptions C48_spherical. Print Assumptions C48_shapes. Print Assumptions C48_degrees. Print Assumptions C48_inverse. Print Assumptions C48_rule. Print Assumptions C48_rule_refuted.
