(** Proofs about double loop inference *)
From Coq Require Import Reals Lra Psatz.
From Verif Require Import Base Algebra DliModel DliSpec.
Local Open Scope R_scope.

(** * Sums *)
Lemma rsum_S n f : rsum (S n) f = rsum n f + f n. Proof. reflexivity. Qed.
Lemma rsum_ext n f g : (forall i, (i < n)%nat -> f i = g i) -> rsum n f = rsum n g. Proof. apply (sum_ext (K := Rring)). Qed.
Lemma rsum_add n f g : rsum n (fun i => f i + g i) = rsum n f + rsum n g. Proof. exact (sum_add (K := Rring) n f g). Qed.
Lemma rsum_mul_l n c f : rsum n (fun i => c * f i) = c * rsum n f. Proof. exact (sum_mul_l (K := Rring) n c f). Qed.
Lemma rsum_mul_r n c f : rsum n (fun i => f i * c) = rsum n f * c. Proof. exact (sum_mul_r (K := Rring) n c f). Qed.
Lemma rsum_swap n m (f : nat -> nat -> R) : rsum n (fun i => rsum m (fun j => f i j)) = rsum m (fun j => rsum n (fun i => f i j)). Proof. exact (sum_swap (K := Rring) n m f). Qed.
Lemma mv_along n A u p s i : mv n A (along u p s) i = mv n A u i + s * mv n A p i.
Proof. unfold mv, along. rewrite <- rsum_mul_l, <- rsum_add. apply rsum_ext. intros j _. ring. Qed.
Lemma mv_ext n A x y i : (forall j, (j < n)%nat -> x j = y j) -> mv n A x i = mv n A y i.
Proof. intros H. apply rsum_ext. intros j Hj. rewrite H by auto. reflexivity. Qed.
Lemma mtv_ext m A x y j : (forall i, (i < m)%nat -> x i = y i) -> mtv m A x j = mtv m A y j.
Proof. intros H. apply rsum_ext. intros i Hi. rewrite H by auto. reflexivity. Qed.
Lemma dot_ext n x y x' y' : (forall j, (j < n)%nat -> x j = x' j) -> (forall j, (j < n)%nat -> y j = y' j) -> dot n x y = dot n x' y'.
Proof. intros H H'. apply rsum_ext. intros j Hj. rewrite H, H' by auto. reflexivity. Qed.
Lemma rsum_div n c f : rsum n (fun i => f i / c) = rsum n f / c. Proof. exact (sum_mul_r (K := Rring) n (/ c) f). Qed.
Lemma dot_mtv n m A e p : dot n (mtv m A e) p = dot m e (mv n A p).
Proof.
  unfold dot, mtv, mv. rewrite (rsum_ext n _ (fun j => rsum m (fun i => A i j * e i * p j))) by (intros; symmetry; apply rsum_mul_r). rewrite rsum_swap. apply rsum_ext. intros i _. rewrite <- rsum_mul_l. apply rsum_ext. intros j _. ring.
Qed.
Lemma dot_scale n c x y : dot n (fun j => c * x j) y = c * dot n x y.
Proof. unfold dot. rewrite <- rsum_mul_l. apply rsum_ext. intros; ring. Qed.
Lemma dot_add n x x' y : dot n (fun j => x j + x' j) y = dot n x y + dot n x' y.
Proof. unfold dot. rewrite <- rsum_add. apply rsum_ext. intros; ring. Qed.
Lemma dot_div n c x y : dot n (fun j => x j / c) y = dot n x y / c.
Proof. rewrite (dot_ext n _ y (fun j => / c * x j) y) by (intros; auto; unfold Rdiv; ring). rewrite dot_scale. unfold Rdiv. ring. Qed.

(** * Derivatives *)
Lemma lim_ext f g x l : (forall s, f s = g s) -> derivable_pt_lim f x l -> derivable_pt_lim g x l.
Proof. intros E H eps Heps. destruct (H eps Heps) as (d & Hd). exists d. intros h Hh Hl. rewrite <- !E. apply Hd; auto. Qed.
Lemma lim_sum m (f : nat -> R -> R) x l : (forall i, (i < m)%nat -> derivable_pt_lim (f i) x (l i)) -> derivable_pt_lim (fun s => rsum m (fun i => f i s)) x (rsum m l).
Proof.
  induction m; intros H; [apply (derivable_pt_lim_const 0)|]. apply (lim_ext (plus_fct (fun s => rsum m (fun i => f i s)) (f m))); [reflexivity|]. rewrite rsum_S. apply derivable_pt_lim_plus; auto.
Qed.
Lemma lim_quad a b c : derivable_pt_lim (fun s => a + s * b + s * s * c) 0 b.
Proof.
  assert (H : derivable_pt_lim (fun s => a + s * b + s * s * c) 0 (0 + (1 * b + 0 * 0) + ((1 * 0 + 0 * 1) * c + 0 * 0 * 0))).
  2: { replace (0 + (1 * b + 0 * 0) + ((1 * 0 + 0 * 1) * c + 0 * 0 * 0)) with b in H by ring. exact H. }
  apply (derivable_pt_lim_plus (plus_fct (fct_cte a) (fun s => s * b)) (fun s => s * s * c)).
  - apply derivable_pt_lim_plus; [apply derivable_pt_lim_const|]. apply (derivable_pt_lim_mult id (fct_cte b)); [apply derivable_pt_lim_id|apply derivable_pt_lim_const].
  - apply (derivable_pt_lim_mult (mult_fct id id) (fct_cte c)); [apply (derivable_pt_lim_mult id id); apply derivable_pt_lim_id|apply derivable_pt_lim_const].
Qed.
Lemma lim_lin a b : derivable_pt_lim (fun s => a + s * b) 0 b.
Proof. apply (lim_ext (fun s => a + s * b + s * s * 0)); [intros; ring|apply lim_quad]. Qed.
Lemma lim_scale k f l : derivable_pt_lim f 0 l -> derivable_pt_lim (fun s => k * f s) 0 (k * l).
Proof. apply derivable_pt_lim_scal. Qed.
(** sqrt(z + ((b + s c) / sigma)^2) *)
Lemma lim_root z b c sigma : 0 < z -> sigma <> 0 ->
  derivable_pt_lim (fun s => sqrt (z + ((b + s * c) / sigma) * ((b + s * c) / sigma))) 0 (b * c / (sigma * sigma) / sqrt (z + (b / sigma) * (b / sigma))).
Proof.
  intros Hz Hs. set (g := fun s => (z + b / sigma * (b / sigma)) + s * (2 * b * c / (sigma * sigma)) + s * s * (c * c / (sigma * sigma))).
  assert (P : 0 < z + b / sigma * (b / sigma)) by (assert (0 <= b / sigma * (b / sigma)) by (apply (Rle_0_sqr (b / sigma))); lra). assert (G0 : g 0 = z + b / sigma * (b / sigma)) by (unfold g; ring).
  apply (lim_ext (comp sqrt g)). { intros s. unfold comp, g. f_equal. field. auto. }
  replace (b * c / (sigma * sigma) / sqrt (z + b / sigma * (b / sigma))) with (/ (2 * sqrt (g 0)) * (2 * b * c / (sigma * sigma))).
  - apply derivable_pt_lim_comp; [apply lim_quad|]. apply derivable_pt_lim_sqrt. rewrite G0. exact P.
  - rewrite G0. assert (sqrt (z + b / sigma * (b / sigma)) <> 0) by (apply Rgt_not_eq, sqrt_lt_R0; exact P). field. auto.
Qed.
(** (b + s c) / sqrt(z + ((b + s c) / sigma)^2) *)
Lemma lim_slope z b c sigma : 0 < z -> sigma <> 0 -> let x := z + (b / sigma) * (b / sigma) in
  derivable_pt_lim (fun s => (b + s * c) / sqrt (z + ((b + s * c) / sigma) * ((b + s * c) / sigma))) 0 (z * c / (x * sqrt x)).
Proof.
  intros Hz Hs x. assert (P : 0 < x) by (unfold x; assert (0 <= b / sigma * (b / sigma)) by (apply (Rle_0_sqr (b / sigma))); lra). assert (Q : 0 < sqrt x) by (apply sqrt_lt_R0; exact P). assert (SS : sqrt x * sqrt x = x) by (apply sqrt_sqrt; lra).
  set (den := fun s => sqrt (z + ((b + s * c) / sigma) * ((b + s * c) / sigma))). assert (D0 : den 0 = sqrt x) by (unfold den, x; f_equal; f_equal; rewrite Rmult_0_l, Rplus_0_r; reflexivity).
  apply (lim_ext (div_fct (fun s => b + s * c) den)); [reflexivity|].
  replace (z * c / (x * sqrt x)) with ((c * den 0 - (b * c / (sigma * sigma) / sqrt x) * (b + 0 * c)) / Rsqr (den 0)).
  - apply (derivable_pt_lim_div (fun s => b + s * c) den 0 c (b * c / (sigma * sigma) / sqrt x)); [apply lim_lin|apply lim_root; auto|rewrite D0; lra].
  - rewrite D0. unfold Rsqr. rewrite SS. assert (N1 : x <> 0) by lra. assert (N2 : sqrt x <> 0) by lra.
    transitivity ((c * (sqrt x * sqrt x) - b * b * c / (sigma * sigma)) / (x * sqrt x)); [field; auto|]. f_equal. rewrite SS. unfold x. field. auto.
Qed.

Section Crit.
Context (a : algo) (u : vec).
Let n := a_n a. Let d := a_d a. Let m := a_m a. Let sigma := a_sigma a.
Context (Hs : sigma <> 0) (Hz : forall i, (i < m)%nat -> 0 < a_z a i) (HN : symmetric d (a_noise a)).

Lemma sym_dot N x y : a_noise a = Some N -> dot d x (mv d N y) = dot d y (mv d N x).
Proof.
  intros E. unfold dot, mv. rewrite (rsum_ext d _ (fun i => rsum d (fun j => x i * N i j * y j))) by (intros; rewrite <- rsum_mul_l; apply rsum_ext; intros; ring).
  rewrite rsum_swap. apply rsum_ext. intros j Hj. rewrite <- rsum_mul_l. apply rsum_ext. intros i Hi. rewrite (HN N E i j) by auto. ring.
Qed.
Lemma resid_along p s i : fst (projections a (along u p s)) i - a_data a i = along (fun i => fst (projections a u) i - a_data a i) (mv n (a_model a) p) s i.
Proof. unfold projections. cbn [fst]. fold n. rewrite mv_along. unfold along. ring. Qed.
Lemma dot_along r w s : dot d (along r w s) (along r w s) = dot d r r + s * (2 * dot d r w) + s * s * dot d w w.
Proof. unfold dot, along. rewrite <- !rsum_mul_l, <- !rsum_add. apply rsum_ext. intros; ring. Qed.
Lemma quad_along N r w s : a_noise a = Some N -> dot d (along r w s) (mv d N (along r w s)) = dot d r (mv d N r) + s * (2 * dot d (mv d N r) w) + s * s * dot d w (mv d N w).
Proof.
  intros E. assert (S := sym_dot N w r E). replace (2 * dot d (mv d N r) w) with (dot d r (mv d N w) + dot d w (mv d N r)).
  2: { replace (dot d (mv d N r) w) with (dot d w (mv d N r)) by (apply rsum_ext; intros; ring). rewrite <- S. ring. }
  rewrite (dot_ext d _ _ (along r w s) (fun i => mv d N r i + s * mv d N w i)) by (intros; auto using mv_along). unfold dot, along. rewrite <- !rsum_mul_l, <- !rsum_add, <- !rsum_mul_l, <- !rsum_add. apply rsum_ext. intros; ring.
Qed.
Lemma like_lim p : derivable_pt_lim (fun s => likelihood a (projections a (along u p s))) 0 (dot n (dlike a (projections a u)) p).
Proof.
  set (r := fun i => fst (projections a u) i - a_data a i). set (w := mv n (a_model a) p). unfold likelihood, dlike. rewrite dot_scale. apply lim_scale. rewrite dot_mtv. fold n d w r.
  pose proof quad_along as QA. destruct (a_noise a) as [N|]; cbn [norm2 norm2_diff].
  - apply (lim_ext (fun s => dot d r (mv d N r) + s * (2 * dot d (mv d N r) w) + s * s * dot d w (mv d N w))).
    + intros s. rewrite <- (QA N) by auto. apply dot_ext; intros i Hi; [symmetry; apply resid_along|]. apply mv_ext. intros j Hj. symmetry. apply resid_along.
    + rewrite dot_scale. apply lim_quad.
  - apply (lim_ext (fun s => dot d r r + s * (2 * dot d r w) + s * s * dot d w w)).
    + intros s. rewrite <- dot_along. apply dot_ext; intros i Hi; symmetry; apply resid_along.
    + rewrite dot_scale. apply lim_quad.
Qed.
Lemma pen_lim p : derivable_pt_lim (fun s => penalization a (projections a (along u p s))) 0 (dot n (fun j => dpen a (projections a u) j / 2) p).
Proof.
  rewrite dot_div. unfold dpen. rewrite dot_div, dot_mtv. fold n m sigma. unfold penalization. fold m sigma. set (b := snd (projections a u)). set (c := mv n (a_prior a) p).
  replace (dot m (fun i => 2 * (a_tau a i * b i) / sqrt (a_z a i + b i / sigma * (b i / sigma))) c / (sigma * sigma) / 2) with (rsum m (fun i => a_tau a i * (b i * c i / (sigma * sigma) / sqrt (a_z a i + b i / sigma * (b i / sigma))))).
  - apply lim_sum. intros i Hi. apply lim_scale. apply (lim_ext (fun s => sqrt (a_z a i + ((b i + s * c i) / sigma) * ((b i + s * c i) / sigma)))); [|apply lim_root; auto].
    intros s. f_equal. f_equal. unfold projections. cbn [snd]. fold n. rewrite mv_along. fold c. change (mv n (a_prior a) u i) with (b i). set (e := b i + s * c i).
    transitivity ((e * e) / (sigma * sigma)); [field; auto|]. transitivity ((Rabs e * Rabs e) / (sigma * sigma)); [|field; auto]. f_equal. rewrite <- Rabs_mult. symmetry. apply Rabs_pos_eq. apply (Rle_0_sqr e).
  - unfold dot. rewrite <- !rsum_div. apply rsum_ext. intros i Hi. assert (P : 0 < a_z a i + b i / sigma * (b i / sigma)) by (assert (0 <= b i / sigma * (b i / sigma)) by (apply (Rle_0_sqr (b i / sigma))); specialize (Hz i Hi); lra).
    assert (sqrt (a_z a i + b i / sigma * (b i / sigma)) <> 0) by (apply Rgt_not_eq, sqrt_lt_R0; exact P). field. auto.
Qed.
Lemma dlike_lim p q : derivable_pt_lim (fun s => dot n (dlike a (projections a (along u p s))) q) 0 (2 * dot n (d2like a p) q).
Proof.
  set (r := fun i => fst (projections a u) i - a_data a i). set (w := mv n (a_model a) p). unfold dlike, d2like. rewrite dot_scale, dot_mtv. fold n d w.
  apply (lim_ext (fun s => / (sigma * sigma) * dot d (norm2_diff d (a_noise a) (along r w s)) (mv n (a_model a) q))).
  { intros s. rewrite dot_scale, dot_mtv. fold d n sigma. f_equal. apply dot_ext; auto. intros i Hi. destruct (a_noise a) as [N|]; cbn [norm2_diff]; [f_equal; apply mv_ext; intros j Hj; symmetry; apply resid_along|f_equal; symmetry; apply resid_along]. }
  replace (2 * (/ (a_sigma a * a_sigma a) * dot d (match a_noise a with Some N => mv d N w | None => w end) (mv n (a_model a) q))) with (/ (sigma * sigma) * (2 * dot d (match a_noise a with Some N => mv d N w | None => w end) (mv n (a_model a) q))) by (unfold sigma; ring).
  apply lim_scale. destruct (a_noise a) as [N|]; cbn [norm2_diff]; rewrite <- dot_scale.
  - apply (lim_ext (fun s => dot d (fun i => 2 * mv d N r i) (mv n (a_model a) q) + s * dot d (fun i => 2 * mv d N w i) (mv n (a_model a) q))); [|apply lim_lin]. intros s. unfold dot. rewrite <- rsum_mul_l, <- rsum_add. apply rsum_ext. intros i Hi. rewrite mv_along. ring.
  - apply (lim_ext (fun s => dot d (fun i => 2 * r i) (mv n (a_model a) q) + s * dot d (fun i => 2 * w i) (mv n (a_model a) q))); [|apply lim_lin]. intros s. unfold dot. rewrite <- rsum_mul_l, <- rsum_add. apply rsum_ext. intros i Hi. unfold along. ring.
Qed.
Lemma dpen_lim p q : derivable_pt_lim (fun s => dot n (dpen a (projections a (along u p s))) q) 0 (2 * dot n (d2pen a (projections a u) p) q).
Proof.
  unfold d2pen. rewrite dot_mtv. fold n m sigma. set (b := snd (projections a u)). set (c := mv n (a_prior a) p). set (k := mv n (a_prior a) q).
  set (G := fun i s => (b i + s * c i) / sqrt (a_z a i + ((b i + s * c i) / sigma) * ((b i + s * c i) / sigma))). set (x := fun i => a_z a i + b i / sigma * (b i / sigma)).
  apply (lim_ext (fun s => rsum m (fun i => (2 * a_tau a i * k i / (sigma * sigma)) * G i s))).
  { intros s. unfold dpen. rewrite dot_div, dot_mtv. fold n m sigma k. unfold dot. rewrite <- rsum_div. apply rsum_ext. intros i Hi. unfold projections. cbn [snd]. fold n. rewrite mv_along. fold c. change (mv n (a_prior a) u i) with (b i). unfold G. set (e := b i + s * c i).
    assert (P : 0 < a_z a i + e / sigma * (e / sigma)) by (assert (0 <= e / sigma * (e / sigma)) by (apply (Rle_0_sqr (e / sigma))); specialize (Hz i Hi); lra). assert (sqrt (a_z a i + e / sigma * (e / sigma)) <> 0) by (apply Rgt_not_eq, sqrt_lt_R0; exact P). field. auto. }
  match goal with |- derivable_pt_lim _ _ ?v => replace v with (rsum m (fun i => (2 * a_tau a i * k i / (sigma * sigma)) * (a_z a i * c i / (x i * sqrt (x i))))) end.
  - apply lim_sum. intros i Hi. apply lim_scale. apply lim_slope; auto.
  - unfold dot. rewrite <- rsum_mul_l. apply rsum_ext. intros i Hi. cbv zeta. fold (x i). assert (P : 0 < x i) by (unfold x; assert (0 <= b i / sigma * (b i / sigma)) by (apply (Rle_0_sqr (b i / sigma))); specialize (Hz i Hi); lra).
    assert (sqrt (x i) <> 0) by (apply Rgt_not_eq, sqrt_lt_R0; exact P). field. repeat split; auto; lra.
Qed.
End Crit.

(** * The memory *)
Lemma likelihood_ext a p p' : (forall i, (i < a_d a)%nat -> fst p i = fst p' i) -> likelihood a p = likelihood a p'.
Proof.
  intros H. unfold likelihood. f_equal. destruct (a_noise a); cbn [norm2]; apply dot_ext; intros i Hi; try (rewrite H by auto; reflexivity). apply mv_ext. intros j Hj. rewrite H by auto. reflexivity.
Qed.
Lemma dlike_ext a p p' j : (forall i, (i < a_d a)%nat -> fst p i = fst p' i) -> dlike a p j = dlike a p' j.
Proof.
  intros H. unfold dlike. f_equal. apply mtv_ext. intros i Hi. destruct (a_noise a); cbn [norm2_diff]; f_equal; [|rewrite H by auto; reflexivity]. apply mv_ext. intros k Hk. rewrite H by auto. reflexivity.
Qed.
Lemma pen_ext a p p' : (forall i, snd p i = snd p' i) -> penalization a p = penalization a p'.
Proof. intros H. apply rsum_ext. intros i Hi. rewrite H. reflexivity. Qed.
Lemma dpen_ext a p p' j : (forall i, snd p i = snd p' i) -> dpen a p j = dpen a p' j.
Proof. intros H. unfold dpen. f_equal. apply mtv_ext. intros i Hi. rewrite H. reflexivity. Qed.
Lemma d2pen_ext a p p' q j : (forall i, snd p i = snd p' i) -> d2pen a p q j = d2pen a p' q j.
Proof. intros H. unfold d2pen. apply mtv_ext. intros i Hi. rewrite H. reflexivity. Qed.
(** The memory holds the projections of the last point *)
Definition good (a : algo) (s : memory) : Prop :=
  match last_u s, last_p s with
  | None, None => True
  | Some v, Some p => (forall i, fst p i = mv (a_n a) (a_model a) v i) /\ forall i, snd p i = mv (a_n a) (a_prior a) v i
  | _, _ => False
  end.
Definition right (a : algo) (u : vec) (p : vec * vec) : Prop := (forall i, fst p i = fst (projections a u) i) /\ forall i, snd p i = snd (projections a u) i.
Lemma get_good a s u : (0 < a_n a)%nat -> good a s -> exists s' p, get_projections a s u = (s', Some p) /\ good a s' /\ right a u p.
Proof.
  intros Hn G. unfold get_projections. destruct (islast a s u) eqn:E.
  - unfold islast in E. unfold good in G. destruct (last_u s) as [v|] eqn:Ev; [|apply Nat.eqb_eq in E; lia]. destruct (last_p s) as [p|] eqn:Ep; [|destruct G]. exists s, p. split; [reflexivity|]. split; [unfold good; rewrite Ev, Ep; exact G|].
    assert (Q : forall i, (i < a_n a)%nat -> v i = u i). { intros i Hi. rewrite forallb_forall in E. specialize (E i ltac:(apply in_seq; lia)). destruct (Req_EM_T (u i) (v i)); [auto|discriminate E]. }
    split; intros i; [rewrite (proj1 G)|rewrite (proj2 G)]; apply mv_ext; auto.
  - do 2 eexists. split; [reflexivity|]. split; [split; reflexivity|split; reflexivity].
Qed.
Lemma eval_good a s q : (0 < a_n a)%nat -> good a s -> good a (fst (eval a s q)) /\ same_answer (a_n a) (snd (eval a s q)) (uncached a q).
Proof.
  intros Hn G. destruct q as [u|u|u p]; cbn [eval uncached].
  - destruct (get_good a s u Hn G) as (s1 & p1 & -> & G1 & R1). destruct (get_good a s1 u Hn G1) as (s2 & p2 & -> & G2 & R2). cbn [fst snd same_answer]. split; [exact G2|]. unfold the_call, call_. f_equal; [apply likelihood_ext; intros; apply R1|apply pen_ext, R2].
  - destruct (get_good a s u Hn G) as (s1 & p1 & -> & G1 & R1). destruct (get_good a s1 u Hn G1) as (s2 & p2 & -> & G2 & R2). cbn [fst snd same_answer]. split; [exact G2|]. intros j _. unfold the_gradient, gradient_. f_equal; [apply dlike_ext; intros; apply R1|apply dpen_ext, R2].
  - destruct (get_good a s u Hn G) as (s1 & p1 & -> & G1 & R1). cbn [fst snd same_answer]. split; [exact G1|]. intros j _. unfold the_hessian_p, hessian_. f_equal. apply d2pen_ext, R1.
Qed.
Lemma evals_good a l : (0 < a_n a)%nat -> forall s, good a s -> Forall2 (same_answer (a_n a)) (evals a s l) (map (uncached a) l).
Proof.
  intros Hn. induction l as [|q l IH]; intros s G; [constructor|]. cbn [evals map]. destruct (eval_good a s q Hn G) as (G' & A). destruct (eval a s q) as [s' r]. cbn [fst snd] in *. constructor; auto.
Qed.

(** * The bound minimised by gamma *)
Lemma amgm x t g : 0 <= x -> 0 < g -> 2 * t * sqrt x <= x / g + t * t * g.
Proof.
  intros Hx Hg. assert (E : x / g + t * t * g - 2 * t * sqrt x = (sqrt x - t * g) * (sqrt x - t * g) / g). { transitivity ((sqrt x * sqrt x) / g + t * t * g - 2 * t * sqrt x); [rewrite sqrt_sqrt by auto; reflexivity|]. field. lra. }
  assert (0 <= (sqrt x - t * g) * (sqrt x - t * g) / g) by (apply Rmult_le_pos; [apply (Rle_0_sqr (sqrt x - t * g))|apply Rlt_le, Rinv_0_lt_compat; auto]). lra.
Qed.
Lemma amgm_eq x t : 0 < x -> 0 < t -> x / (sqrt x / t) + t * t * (sqrt x / t) = 2 * t * sqrt x.
Proof.
  intros Hx Ht. assert (0 < sqrt x) by (apply sqrt_lt_R0; auto). assert (S : sqrt x * sqrt x = x) by (apply sqrt_sqrt; lra). transitivity ((sqrt x * sqrt x) / (sqrt x / t) + t * t * (sqrt x / t)); [rewrite S; reflexivity|]. field. lra.
Qed.

(** * The gradient of the criterion *)
Section Glue.
Context (a : algo) (u : vec) (Hs : a_sigma a <> 0) (Hz : forall i, (i < a_m a)%nat -> 0 < a_z a i) (HN : symmetric (a_d a) (a_noise a)).
Lemma call_lim p : derivable_pt_lim (fun s => the_call a (along u p s)) 0 (dot (a_n a) (fun j => dlike a (projections a u) j + dpen a (projections a u) j / 2) p).
Proof.
  rewrite dot_add. apply (lim_ext (plus_fct (fun s => likelihood a (projections a (along u p s))) (fun s => penalization a (projections a (along u p s))))); [reflexivity|]. apply derivable_pt_lim_plus; [apply like_lim|apply pen_lim]; auto.
Qed.
Lemma twice_lim p : derivable_pt_lim (fun s => likelihood a (projections a (along u p s)) + 2 * penalization a (projections a (along u p s))) 0 (dot (a_n a) (the_gradient a u) p).
Proof.
  unfold the_gradient, gradient_. rewrite dot_add. apply (derivable_pt_lim_plus (fun s => likelihood a (projections a (along u p s))) (fun s => 2 * penalization a (projections a (along u p s)))); [apply like_lim; auto|].
  replace (dot (a_n a) (dpen a (projections a u)) p) with (2 * dot (a_n a) (fun j => dpen a (projections a u) j / 2) p) by (rewrite dot_div; field). apply lim_scale, pen_lim; auto.
Qed.
Lemma grad_lim p q : derivable_pt_lim (fun s => dot (a_n a) (the_gradient a (along u p s)) q) 0 (dot (a_n a) (fun j => 2 * the_hessian_p a u p j) q).
Proof.
  rewrite dot_scale. unfold the_hessian_p, hessian_. rewrite dot_add, Rmult_plus_distr_l.
  apply (lim_ext (plus_fct (fun s => dot (a_n a) (dlike a (projections a (along u p s))) q) (fun s => dot (a_n a) (dpen a (projections a (along u p s))) q))); [intros s; unfold plus_fct, the_gradient, gradient_; symmetry; apply dot_add|]. apply derivable_pt_lim_plus; [apply dlike_lim|apply dpen_lim]; auto.
Qed.
Lemma rsum_delta n j f : (j < n)%nat -> rsum n (fun i => f i * (if (i =? j)%nat then 1 else 0)) = f j.
Proof.
  induction n; intros H; [lia|]. rewrite rsum_S. destruct (Nat.eq_dec j n) as [->|D].
  - rewrite Nat.eqb_refl. rewrite (rsum_ext n _ (fun i => f i * 0)) by (intros i Hi; destruct (Nat.eqb_spec i n); [lia|reflexivity]). rewrite rsum_mul_r. ring.
  - rewrite IHn by lia. destruct (Nat.eqb_spec n j); [lia|ring].
Qed.
Lemma grad_iff : is_gradient (a_n a) (the_call a) u (the_gradient a u) <-> forall j, (j < a_n a)%nat -> dpen a (projections a u) j = 0.
Proof.
  split.
  - intros G j Hj. set (p := fun i => if (i =? j)%nat then 1 else 0). assert (E := uniqueness_limite _ _ _ _ (G p) (call_lim p)). unfold dot, p in E. rewrite !(rsum_delta _ j) in E by auto. unfold the_gradient, gradient_ in E. lra.
  - intros Z p. replace (dot (a_n a) (the_gradient a u) p) with (dot (a_n a) (fun j => dlike a (projections a u) j + dpen a (projections a u) j / 2) p); [apply call_lim|]. apply dot_ext; auto. intros j Hj. unfold the_gradient, gradient_. rewrite Z by auto. field.
Qed.
Lemma hess_iff : is_derivative (a_n a) (the_gradient a) u (the_hessian_p a u) <-> forall p j, (j < a_n a)%nat -> the_hessian_p a u p j = 0.
Proof.
  split.
  - intros G p j Hj. set (q := fun i => if (i =? j)%nat then 1 else 0). assert (E := uniqueness_limite _ _ _ _ (G p q) (grad_lim p q)). unfold dot, q in E. rewrite !(rsum_delta _ j) in E by auto. lra.
  - intros Z p q. replace (dot (a_n a) (the_hessian_p a u p) q) with (dot (a_n a) (fun j => 2 * the_hessian_p a u p j) q); [apply grad_lim|]. apply dot_ext; auto. intros j Hj. rewrite Z by auto. ring.
Qed.
End Glue.

(** * The outer loop *)
Lemma z_diag a r e v A i : eigendecomposition (a_n a) r A e v -> update_z a r e v i = diagonal_of (a_n a) (a_prior a) A i.
Proof.
  intros H. set (n := a_n a) in *. set (B := a_prior a). unfold diagonal_of. rewrite (rsum_ext n _ (fun j => rsum n (fun k => rsum r (fun l => e l * (B i j * v j l) * (B i k * v k l))))).
  2: { intros j Hj. apply rsum_ext. intros k Hk. rewrite H by auto. rewrite <- rsum_mul_l, <- rsum_mul_r. apply rsum_ext. intros; ring. }
  rewrite (rsum_ext n _ (fun j => rsum r (fun l => e l * (B i j * v j l) * mv n B (fun k => v k l) i))).
  2: { intros j Hj. rewrite rsum_swap. apply rsum_ext. intros l Hl. unfold mv. rewrite <- rsum_mul_l. apply rsum_ext. intros; ring. }
  rewrite rsum_swap. unfold update_z. fold n B. apply rsum_ext. intros l Hl. rewrite rsum_mul_r. rewrite rsum_mul_l. fold (mv n B (fun k => v k l) i). ring.
Qed.
Lemma bilinear n m (A : mat) (w : nat -> R) x : rsum n (fun i => rsum n (fun j => x i * rsum m (fun k => A k i * (w k * A k j)) * x j)) = rsum m (fun k => w k * (mv n A x k * mv n A x k)).
Proof.
  rewrite (rsum_ext n _ (fun i => rsum m (fun k => w k * (A k i * x i) * mv n A x k))).
  2: { intros i Hi. rewrite (rsum_ext n _ (fun j => rsum m (fun k => w k * (A k i * x i) * (A k j * x j)))) by (intros; rewrite <- rsum_mul_l, <- rsum_mul_r; apply rsum_ext; intros; ring). rewrite rsum_swap. apply rsum_ext. intros k Hk. unfold mv. rewrite <- rsum_mul_l. reflexivity. }
  rewrite rsum_swap. apply rsum_ext. intros k Hk. rewrite rsum_mul_r, rsum_mul_l. fold (mv n A x k). ring.
Qed.
Lemma bilinear2 n d (X N : mat) x : rsum n (fun i => rsum n (fun j => x i * rsum d (fun k => X k i * rsum d (fun l => N k l * X l j)) * x j)) = dot d (mv n X x) (mv d N (mv n X x)).
Proof.
  rewrite (rsum_ext n _ (fun i => rsum d (fun k => (X k i * x i) * mv d N (mv n X x) k))).
  2: { intros i Hi. rewrite (rsum_ext n _ (fun j => rsum d (fun k => (X k i * x i) * rsum d (fun l => N k l * (X l j * x j))))).
       2: { intros j Hj. rewrite <- rsum_mul_l, <- rsum_mul_r. apply rsum_ext. intros k Hk. rewrite (rsum_ext d (fun l => N k l * (X l j * x j)) (fun l => N k l * X l j * x j)) by (intros; ring). rewrite rsum_mul_r. ring. }
       rewrite rsum_swap. apply rsum_ext. intros k Hk. rewrite rsum_mul_l. f_equal. rewrite rsum_swap. apply rsum_ext. intros l Hl. rewrite rsum_mul_l. reflexivity. }
  rewrite rsum_swap. apply rsum_ext. intros k Hk. rewrite rsum_mul_r. reflexivity.
Qed.
Lemma inv_cov_form a gamma x :
  rsum (a_n a) (fun i => rsum (a_n a) (fun j => x i * inv_cov a gamma i j * x j)) = norm2 (a_d a) (a_noise a) (mv (a_n a) (a_model a) x) + rsum (a_m a) (fun k => mv (a_n a) (a_prior a) x k * mv (a_n a) (a_prior a) x k / gamma k).
Proof.
  unfold inv_cov. set (n := a_n a). set (T := fun i j => rsum (a_d a) (fun k => a_model a k i * match a_noise a with Some N => rsum (a_d a) (fun l => N k l * a_model a l j) | None => a_model a k j end)).
  rewrite (rsum_ext n _ (fun i => rsum n (fun j => x i * T i j * x j) + rsum n (fun j => x i * rsum (a_m a) (fun k => a_prior a k i * (/ gamma k * a_prior a k j)) * x j))) by (intros; rewrite <- rsum_add; apply rsum_ext; intros; unfold T; ring).
  rewrite rsum_add, bilinear. f_equal; [|apply rsum_ext; intros; unfold Rdiv; ring]. unfold T. destruct (a_noise a) as [N|]; cbn [norm2]; [apply bilinear2|].
  rewrite (rsum_ext n _ (fun i => rsum n (fun j => x i * rsum (a_d a) (fun k => a_model a k i * (1 * a_model a k j)) * x j))) by (intros; apply rsum_ext; intros; f_equal; f_equal; apply rsum_ext; intros; ring). rewrite bilinear. apply rsum_ext. intros; ring.
Qed.
