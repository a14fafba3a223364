(** C49: double loop inference and the wrappers of scipy.optimize *)
From Coq Require Import Reals Lra.
From Verif Require Import Base Algebra DliModel DliSpec DliProofs.
Local Open Scope R_scope.

(** The parameters met by a run: sigma is not zero, the variances z are positive and the noise matrix is symmetric *)
Definition regular (a : algo) : Prop := a_sigma a <> 0 /\ (forall i, (i < a_m a)%nat -> 0 < a_z a i) /\ symmetric (a_d a) (a_noise a).

(** An example: one unknown, one datum, X = B = tau = sigma = z = 1 *)
Definition one1 : algo := Algo 1 1 1 (fun _ _ => 1) (fun _ => 0) (fun _ _ => 1) None 1 (fun _ => 1) (fun _ => 1).
Lemma one1_regular : regular one1. Proof. split; [cbn; lra|]. split; [intros; cbn; lra|intros N E; discriminate E]. Qed.

(** The first term of the gradient is the gradient of the likelihood *)
Theorem C49_likelihood : forall a u, regular a -> is_gradient (a_n a) (fun v => likelihood a (projections a v)) u (dlike a (projections a u)).
Proof. intros a u (_ & _ & HN) p. apply like_lim; auto. Qed.
(** The gradient given to the optimisers is the gradient of the likelihood plus twice the penalization *)
Theorem C49_gradient : forall a u, regular a -> is_gradient (a_n a) (fun v => likelihood a (projections a v) + 2 * penalization a (projections a v)) u (the_gradient a u).
Proof. intros a u (Hs & Hz & HN) p. apply twice_lim; auto. Qed.
(** It is the gradient of the criterion at the points where the second term is zero, and at no other *)
Theorem C49_gradient_iff : forall a u, regular a -> (is_gradient (a_n a) (the_call a) u (the_gradient a u) <-> forall j, (j < a_n a)%nat -> dpen a (projections a u) j = 0).
Proof. intros a u (Hs & Hz & HN). apply grad_iff; auto. Qed.
(** The gradient method of the criterion of the inner loop is not its gradient: the penalization has a factor 2 in dpen and none in __call__ (the comment kept in the code has the factor in both).  The line search and the Newton steps do not minimise the same
    function. *)
Theorem C49_gradient_refuted : ~ forall a u, regular a -> is_gradient (a_n a) (the_call a) u (the_gradient a u).
Proof.
  intros H. specialize (H one1 (fun _ => 1) one1_regular). pose proof (proj1 (C49_gradient_iff _ _ one1_regular) H) as H'; clear H; rename H' into H. specialize (H 0%nat (Nat.lt_0_succ 0)). unfold dpen, projections, mtv, mv, rsum in H. cbn in H. replace (0 + 1 * 1) with 1 in H by ring.
  assert (P : 0 < sqrt (1 + 1 / 1 * (1 / 1))) by (apply sqrt_lt_R0; lra). assert (0 < 2 * (1 * 1) / sqrt (1 + 1 / 1 * (1 / 1))) by (apply Rdiv_lt_0_compat; lra). set (y := 2 * (1 * 1) / _) in *. replace ((0 + 1 * y) / (1 * 1)) with y in H by field. lra.
Qed.
(** The hessian given to the optimisers is half the derivative of the gradient given to them *)
Theorem C49_hessian : forall a u, regular a -> is_derivative (a_n a) (the_gradient a) u (fun p j => 2 * the_hessian_p a u p j).
Proof. intros a u (Hs & Hz & HN) p q. apply grad_lim; auto. Qed.
(** hessian_p is not the derivative of gradient, unless both are zero: the factors 2 of the gradient are lost *)
Theorem C49_hessian_refuted : ~ forall a u, regular a -> is_derivative (a_n a) (the_gradient a) u (the_hessian_p a u).
Proof.
  intros H. specialize (H one1 (fun _ => 0) one1_regular). destruct one1_regular as (R1 & R2 & R3). pose proof (proj1 (hess_iff _ _ R1 R2 R3) H) as H'; clear H; rename H' into H. specialize (H (fun _ => 1) 0%nat (Nat.lt_0_succ 0)). unfold the_hessian_p, hessian_, d2like, d2pen, projections, mtv, mv, rsum in H. cbn in H. replace (0 + 1 * 0) with 0 in H by ring. replace (0 + 1 * 1) with 1 in H by ring. replace (1 + 0 / 1 * (0 / 1)) with 1 in H by field. rewrite sqrt_1 in H.
  set (y := 1 * 1 / _ * 1) in H. assert (y = 1) by (unfold y; field). assert (/ (1 * 1) = 1) by field. lra.
Qed.

(** The width gamma is the minimiser, among the positive numbers, of the bound of the penalization of each coefficient, and the minimum is twice its penalization *)
Theorem C49_gamma : forall a u i, 0 < a_tau a i -> 0 < a_z a i ->
  let x := a_z a i + (Rabs (mv (a_n a) (a_prior a) u i) / a_sigma a) * (Rabs (mv (a_n a) (a_prior a) u i) / a_sigma a) in
  let bound g := x / g + a_tau a i * a_tau a i * g in
  0 < update_gamma a u i /\ (forall g, 0 < g -> bound (update_gamma a u i) <= bound g) /\ bound (update_gamma a u i) = 2 * (a_tau a i * sqrt x).
Proof.
  intros a u i Ht Hz x bound. assert (P : 0 < x) by (unfold x; set (y := Rabs _ / _); assert (0 <= y * y) by (apply (Rle_0_sqr y)); lra). assert (E : bound (update_gamma a u i) = 2 * a_tau a i * sqrt x) by (apply (amgm_eq x (a_tau a i)); auto).
  split; [apply Rdiv_lt_0_compat; [apply sqrt_lt_R0|]; auto|]. split; [|rewrite E; ring]. intros g Hg. rewrite E. apply amgm; lra.
Qed.
(** The operator decomposed in the outer loop: its quadratic form is the squared norm of X x, weighted by the noise, plus the weighted squares of B x *)
Theorem C49_inverse_covariance : forall a gamma x,
  rsum (a_n a) (fun i => rsum (a_n a) (fun j => x i * inv_cov a gamma i j * x j)) = norm2 (a_d a) (a_noise a) (mv (a_n a) (a_model a) x) + rsum (a_m a) (fun k => mv (a_n a) (a_prior a) x k * mv (a_n a) (a_prior a) x k / gamma k).
Proof. exact inv_cov_form. Qed.
(** The new z is the diagonal of B A B^T, where A is the approximation of the inverse covariance *)
Theorem C49_variances : forall a r e v A, eigendecomposition (a_n a) r A e v -> forall i, update_z a r e v i = diagonal_of (a_n a) (a_prior a) A i.
Proof. intros; apply z_diag; auto. Qed.
(** z is not the posterior variance diag(B A^-1 B^T) of the coefficients, which the double loop algorithm requires: the eigenvalues of the inverse covariance are used instead of their inverses *)
Theorem C49_variances_refuted : ~ forall a r e v A A', eigendecomposition (a_n a) r A e v -> inverse_of (a_n a) A A' -> (forall i j, (i < a_n a)%nat -> (j < a_n a)%nat -> A i j = inv_cov a (fun _ => 1) i j) ->
  forall i, (i < a_m a)%nat -> update_z a r e v i = diagonal_of (a_n a) (a_prior a) A' i.
Proof.
  intros H. specialize (H one1 1%nat (fun _ => 2) (fun _ _ => 1) (fun _ _ => 2) (fun _ _ => / 2)). cbn in H.
  assert (X : 0 + 2 * ((0 + 1 * 1) * (0 + 1 * 1)) = 0 + (0 + 1 * / 2 * 1)); [|lra]. apply (H) with (i := 0%nat); [|intros i j Hi Hj|intros i j Hi Hj|lia].
  - intros i j _ _. cbn. ring.
  - assert (i = 0%nat /\ j = 0%nat) as [-> ->] by (cbn in *; lia). cbn. field.
  - unfold inv_cov, rsum. cbn. field.
Qed.

(** The memory of the last point changes no answer: every sequence of calls of the criterion, of its gradient and of its hessian gives what they give without memory *)
Theorem C49_memory : forall a l, (0 < a_n a)%nat -> Forall2 (same_answer (a_n a)) (evals a new_memory l) (map (uncached a) l).
Proof. intros a l Hn. apply evals_good; cbn; auto. Qed.
(** Without unknowns, the criterion finds its empty memory equal to the point, and every call is a TypeError *)
Theorem C49_memory_empty : forall a l, a_n a = 0%nat -> evals a new_memory l = map (fun _ => Error_ TypeError) l.
Proof. intros a l E. induction l as [|q l IH]; [reflexivity|]. destruct q; cbn [evals eval map get_projections islast last_u new_memory]; unfold get_projections, islast; cbn [last_u new_memory]; rewrite E; cbn; f_equal; exact IH. Qed.

(** The parameter tau: the default is 1, an array of the size of the prior is kept, a number or an array of one number is repeated, and the others are refused *)
Theorem C49_tau : forall m tau,
  match tau with
  | None => exists t, tau_of m tau = Ok t /\ forall i, t i = 1
  | Some l =>
      (length l = m -> exists t, tau_of m tau = Ok t /\ forall i, (i < m)%nat -> t i = nth i l 0) /\
      (forall x, l = [x] -> exists t, tau_of m tau = Ok t /\ forall i, (i < m)%nat -> t i = x) /\
      (length l <> m -> length l <> 1%nat -> tau_of m tau = Raise ValueError)
  end.
Proof.
  intros m [l|]; [|eexists; split; [reflexivity|auto]]. cbn [tau_of]. split; [intros ->; rewrite Nat.eqb_refl; eexists; split; [reflexivity|auto]|]. split.
  - intros x ->. cbn [length]. destruct (Nat.eqb_spec 1 m) as [<-|D]; eexists; (split; [reflexivity|]); intros i Hi; [destruct i; [reflexivity|lia]|cbn; lra].
  - intros D D1. destruct (Nat.eqb_spec (length l) m); [contradiction|]. destruct l as [|x [|y l]]; [reflexivity|destruct D1; reflexivity|reflexivity].
Qed.

Section Wrappers.
Context {C V G H : Type} (fmin : wrapper -> C -> V -> option G -> option H -> output V) (zeros : V).
Definition value (o : output V) : V := match o with Array x | Tuple x => x end.
(** What each class gives to the function of scipy, besides the criterion *)
Definition gradient_used (w : wrapper) (g : option G) : option G := match w with COBYLA | Powell => None | _ => g end.
Definition hessian_used (w : wrapper) (h : option H) : option H := match w with NCG => h | _ => None end.
(** A wrapper is refused if it is FminNCG and the criterion has no product by the hessian *)
Theorem C49_wrapper_refused : forall w (c : C) (g : option G) (h : option H) (x0 : option V), (exists e, new_wrapper w c g h x0 = Raise e) <-> w = NCG /\ h = None.
Proof. intros w c g h x0. split; [intros (e & E); destruct w, h; try discriminate E; auto|intros (-> & ->); eexists; reflexivity]. Qed.
(** The result of a call is the first item of what the function of scipy returns when started from zeros, and is kept in current_solution *)
Theorem C49_wrapper : forall w (c : C) (g : option G) (h : option H) (x0 : option V) f, w <> COBYLA -> new_wrapper w c g h x0 = Ok f ->
  let x := value (fmin w c zeros (gradient_used w g) (hessian_used w h)) in
  snd (wrapper_call fmin zeros f) = Some x /\ f_current (fst (wrapper_call fmin zeros f)) = Some x.
Proof. intros w c g h x0 f D E x. assert (F : f = Fmin w c g h None None) by (destruct w, h; cbn in E; congruence). rewrite F. subst x. destruct w; try contradiction; cbn [wrapper_call f_class f_criterion f_gradient f_hessian_p fst snd f_current gradient_used hessian_used]; split; destruct (fmin _ _ _ _ _); reflexivity. Qed.
End Wrappers.
(** The first guess x0 is not used: it is replaced by None at the end of __init__ and by zeros in __call__.  The inner loop of the double loop algorithm does not start from the last solution. *)
Theorem C49_first_guess_refuted : ~ forall (C V G H : Type) (fmin : wrapper -> C -> V -> option G -> option H -> output V) zeros w c g h x0 f, w <> COBYLA -> new_wrapper w c g h (Some x0) = Ok f ->
  snd (wrapper_call fmin zeros f) = Some (value (fmin w c x0 (gradient_used w g) (hessian_used w h))).
Proof. intros H. specialize (H unit nat unit unit (fun _ _ x _ _ => Array x) 0%nat Powell tt None None 1%nat _ ltac:(discriminate) eq_refl). discriminate H. Qed.
(** FminCOBYLA returns None: the result of the optimiser is put in current_solution, which is then replaced by optimizer_output, never set *)
Theorem C49_cobyla_refuted : ~ forall (C V G H : Type) (fmin : wrapper -> C -> V -> option G -> option H -> output V) zeros c g h x0 f, new_wrapper COBYLA c g h x0 = Ok f ->
  snd (wrapper_call fmin zeros f) = Some (value (fmin COBYLA c zeros None None)).
Proof. intros H. specialize (H unit nat unit unit (fun _ _ x _ _ => Array x) 0%nat tt None None None _ eq_refl). discriminate H. Qed.

(** * Examples *)
(** Two unknowns, a noise matrix and a prior of differences *)
Definition two : algo := Algo 2 2 1 (fun i j => if (i =? j)%nat then 1 else 0) (fun i => INR i) (fun _ j => if (j =? 0)%nat then -1 else 1) (Some (fun i j => if (i =? j)%nat then 2 else 1)) 2 (fun _ => 3) (fun _ => 4).
Example C49_two : regular two.
Proof. split; [cbn; lra|]. split; [intros; cbn; lra|]. intros N E i j _ _. injection E as <-. rewrite Nat.eqb_sym. reflexivity. Qed.
Example C49_two_value : penalization two (projections two (fun _ => 1)) = 6.
Proof. cbn. replace (0 + -1 * 1 + 1 * 1) with 0 by ring. rewrite Rabs_R0. replace (4 + 0 / 2 * (0 / 2)) with (2 * 2) by field. rewrite sqrt_square by lra. ring. Qed.
Example C49_gamma_one : 0 < a_tau one1 0%nat /\ 0 < a_z one1 0%nat /\ update_gamma one1 (fun _ => 0) 0%nat = 1.
Proof. unfold update_gamma, mv, rsum. cbn. split; [lra|]. split; [lra|]. replace (0 + 1 * 0) with 0 by ring. rewrite Rabs_R0. replace (1 + 0 / 1 * (0 / 1)) with 1 by field. rewrite sqrt_1. field. Qed.
Example C49_eigen : eigendecomposition 2 2 (fun i j => if (i =? j)%nat then 2 else 1) (fun k => if (k =? 0)%nat then 3 / 2 else / 2) (fun i k => if (k =? 0)%nat then 1 else if (i =? 0)%nat then 1 else -1).
Proof. intros i j Hi Hj. assert (i = 0 \/ i = 1)%nat as [-> | ->] by lia; assert (j = 0 \/ j = 1)%nat as [-> | ->] by lia; cbn; field. Qed.
Example C49_memory_two : (0 < a_n two)%nat. Proof. cbn. lia. Qed.
Example C49_tau_one : exists t, tau_of 3 (Some [5]) = Ok t /\ t 2%nat = 5. Proof. eexists. split; [reflexivity|cbn; lra]. Qed.
Example C49_wrapper_ncg : new_wrapper (C := unit) (V := nat) NCG tt (Some tt) (Some tt) (Some 3%nat) = Ok (Fmin NCG tt (Some tt) (Some tt) None None). Proof. reflexivity. Qed.

Print Assumptions C49_likelihood.
Print Assumptions C49_gradient.
Print Assumptions C49_gradient_iff.
Print Assumptions C49_gradient_refuted.
Print Assumptions C49_hessian.
Print Assumptions C49_hessian_refuted.
Print Assumptions C49_gamma.
Print Assumptions C49_inverse_covariance.
Print Assumptions C49_variances.
Print Assumptions C49_variances_refuted.
Print Assumptions C49_memory.
Print Assumptions C49_memory_empty.
Print Assumptions C49_tau.
Print Assumptions C49_wrapper_refused.
Print Assumptions C49_wrapper.
Print Assumptions C49_first_guess_refuted.
Print Assumptions C49_cobyla_refuted.
