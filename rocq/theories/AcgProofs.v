(** Proofs for C43. *)
From Verif Require Import Base Algebra Ofield CritModel CritSpec CritSums CritCalc CgModel CgSpec CgProofs AcgModel AcgSpec.
Local Open Scope nat_scope.

Section Quadratic.
Context {K : ofield} (N1 : (r1 : K) <> r0) (n : nat) (f : list K -> K) (g : list K -> list K) (q : list K -> K) (QF : quadratic_function n f g q).
Add Ring KringAcg : (rth K).
Local Open Scope cr_scope.
Notation array := (list K).
Notation dotl := (@CritModel.dot K).
Notation dotv := (@CgModel.dot K n).
Definition vec (x : array) : nat -> K := fun i => nth i x 0.
Definition zero : array := repeat 0 n.
Definition lst (v : nat -> K) : array := map v (seq 0 n).
Definition unit (j : nat) : array := lst (fun i => if Nat.eqb i j then 1 else 0).
Lemma lst_length v : length (lst v) = n. Proof. unfold lst. rewrite map_length, seq_length. reflexivity. Qed.
Lemma nth_lst v i : (i < n)%nat -> nth i (lst v) 0 = v i.
Proof. intros H. unfold lst. rewrite (nth_indep _ 0 (v 0%nat)) by (rewrite map_length, seq_length; exact H). rewrite map_nth, seq_nth by exact H. reflexivity. Qed.
Lemma zero_length : length zero = n. Proof. apply repeat_length. Qed.
Lemma nth_zero i : nth i zero 0 = 0. Proof. unfold zero. clear. revert i. induction n; intros [|i]; cbn; auto. Qed.
Lemma dot_vec x y : length x = n -> length y = n -> dotl x y = dotv (vec x) (vec y).
Proof. intros Hx Hy. apply dot_sum; assumption. Qed.
Lemma dot_unit x j : length x = n -> (j < n)%nat -> dotl x (unit j) = nth j x 0.
Proof.
  intros Hx Hj. rewrite (dot_vec x (unit j) Hx (lst_length _)). unfold CgModel.dot, vec. rewrite (sum_single n _ j Hj).
  - unfold unit. rewrite nth_lst by exact Hj. rewrite Nat.eqb_refl. ring.
  - intros i Hi N. unfold unit. rewrite nth_lst by exact Hi. destruct (Nat.eqb_spec i j); [contradiction|]. ring.
Qed.
Lemma add_length (x y : array) : length x = n -> length y = n -> length (map2 radd x y) = n.
Proof. intros Hx Hy. rewrite map2_length; congruence. Qed.
Lemma zero_add x : length x = n -> map2 radd zero x = x.
Proof. intros H. apply (array_ext n); [apply add_length; auto using zero_length|exact H|]. intros i Hi. rewrite nth_map2 by (rewrite ?zero_length; lia). rewrite nth_zero. ring. Qed.
Lemma add_comm_l (x y : array) : length x = n -> length y = n -> map2 radd x y = map2 radd y x.
Proof. intros Hx Hy. apply (array_ext n); [apply add_length; assumption..|]. intros i Hi. rewrite !nth_map2 by lia. ring. Qed.
Definition bil (k h : array) : K := q (map2 radd k h) - q k - q h.
Lemma diff_g y k h : length y = n -> length k = n -> length h = n -> dotl (g (map2 radd y k)) h - dotl (g y) h = bil k h.
Proof.
  destruct QF as (G & F & _). intros Hy Hk Hh. unfold bil.
  pose proof (F (map2 radd y k) h (add_length _ _ Hy Hk) Hh) as E1. pose proof (F y (map2 radd k h) Hy (add_length _ _ Hk Hh)) as E2. pose proof (F y k Hy Hk) as E3.
  rewrite map2_assoc in E2. rewrite E2 in E1. rewrite E3 in E1. rewrite dot_add_r in E1 by (rewrite G; congruence).
  assert (E : dotl (g (map2 radd y k)) h = (f y + dotl (g y) k + q k + dotl (g (map2 radd y k)) h + q h) - (f y + dotl (g y) k + q k + q h)) by ring.
  rewrite E, <- E1. ring.
Qed.
Definition half : K := inv two.
Lemma half_two : two * half = 1. Proof. apply inv_ok, two_neq, N1. Qed.
Definition matrix (i j : nat) : K := half * (nth j (g (unit i)) 0 - nth j (g zero) 0).
Definition rhs (i : nat) : K := - (half * nth i (g zero) 0).
Lemma gradient_diff x i : length x = n -> (i < n)%nat -> nth i (g x) 0 - nth i (g zero) 0 = two * CgModel.apply n matrix (vec x) i.
Proof.
  destruct QF as (G & _ & _). intros Hx Hi. assert (Hu : length (unit i) = n) by apply lst_length.
  rewrite <- !(dot_unit _ i) by (try apply G; auto using zero_length). rewrite <- (zero_add x Hx) at 1. rewrite diff_g by (auto using zero_length).
  transitivity (bil (unit i) x). { unfold bil. rewrite (add_comm_l x (unit i)) by assumption. ring. }
  rewrite <- (diff_g zero (unit i) x) by (auto using zero_length). rewrite zero_add by exact Hu.
  rewrite !dot_vec by (try apply G; auto using zero_length). unfold CgModel.dot, CgModel.apply, matrix, vec. rewrite <- sum_sub, <- sum_mul_l. apply sum_ext. intros j Hj.
  transitivity ((two * half) * ((nth j (g (unit i)) 0 - nth j (g zero) 0) * nth j x 0)); [rewrite half_two; ring|ring].
Qed.
Lemma matrix_sym i j : (i < n)%nat -> (j < n)%nat -> matrix i j = matrix j i.
Proof.
  intros Hi Hj. pose proof (gradient_diff (unit i) j (lst_length _) Hj) as E. unfold matrix at 1. rewrite E.
  unfold CgModel.apply. rewrite (sum_single n _ i Hi).
  - unfold vec, unit. rewrite nth_lst by exact Hi. rewrite Nat.eqb_refl. transitivity ((two * half) * matrix j i); [ring|rewrite half_two; ring].
  - intros k Hk N. unfold vec, unit. rewrite nth_lst by exact Hk. destruct (Nat.eqb_spec k i); [contradiction|]. ring.
Qed.
Lemma gradient_affine x i : length x = n -> (i < n)%nat -> nth i (g x) 0 = - (two * (rhs i - CgModel.apply n matrix (vec x) i)).
Proof.
  intros Hx Hi. pose proof (gradient_diff x i Hx Hi) as E. unfold rhs.
  transitivity (two * CgModel.apply n matrix (vec x) i + (two * half) * nth i (g zero) 0); [rewrite half_two, <- E; ring|ring].
Qed.
Lemma double h : map2 radd h h = map (fun t : K => two * t) h.
Proof. induction h as [|a h IH]; [reflexivity|]. cbn. rewrite IH. f_equal. unfold two. ring. Qed.
Lemma quadratic_part h : length h = n -> q h = dotv (vec h) (CgModel.apply n matrix (vec h)).
Proof.
  destruct QF as (G & F & Q). intros Hh. pose proof (diff_g zero h h zero_length Hh Hh) as E. rewrite zero_add in E by exact Hh. unfold bil in E. rewrite double, Q in E by exact Hh.
  rewrite !dot_vec in E by (try apply G; auto using zero_length). unfold CgModel.dot in *. rewrite <- sum_sub in E.
  rewrite (sum_ext n _ (fun i => two * (vec h i * CgModel.apply n matrix (vec h) i))) in E.
  2:{ intros i Hi. unfold vec at 1 3. pose proof (gradient_diff h i Hh Hi) as D. transitivity ((nth i (g h) 0 - nth i (g zero) 0) * vec h i); [ring|rewrite D; ring]. }
  rewrite sum_mul_l in E. transitivity ((two * half) * q h); [rewrite half_two; ring|]. transitivity (half * (two * two * q h - q h - q h)); [unfold two; ring|]. rewrite <- E.
  match goal with |- _ = ?s => transitivity ((two * half) * s); [ring|rewrite half_two; ring] end.
Qed.
Lemma nth_vec_eq (v : nat -> K) i : (i < n)%nat -> vec (lst v) i = v i. Proof. apply nth_lst. Qed.
Lemma apply_ext (B : nat -> nat -> K) x y i : (forall j, (j < n)%nat -> x j = y j) -> CgModel.apply n B x i = CgModel.apply n B y i.
Proof. intros H. apply sum_ext. intros j Hj. rewrite H by exact Hj. reflexivity. Qed.
Lemma matrix_spd : definite n q -> spd n matrix.
Proof.
  intros D. split; [intros; apply matrix_sym; assumption|]. intros x Nx. change (lt 0 (dotv x (CgModel.apply n matrix x))).
  rewrite (CgProofs.dot_ext n x (CgModel.apply n matrix x) (vec (lst x)) (CgModel.apply n matrix (vec (lst x)))).
  - rewrite <- quadratic_part by apply lst_length. apply D; [apply lst_length|]. intros E. apply Nx. intros i Hi. rewrite <- (nth_lst x i Hi). rewrite E. apply nth_zero.
  - intros i Hi. symmetry. apply nth_vec_eq, Hi.
  - intros i Hi. apply apply_ext. intros j Hj. symmetry. apply nth_vec_eq, Hj.
Qed.
Definition idm (i j : nat) : K := if Nat.eqb j i then 1 else 0.
Lemma apply_idm x i : (i < n)%nat -> CgModel.apply n idm x i = x i.
Proof. intros Hi. unfold CgModel.apply, idm. rewrite (sum_single n _ i Hi); [rewrite Nat.eqb_refl; ring|]. intros j Hj N. destruct (Nat.eqb_spec j i); [contradiction|]. ring. Qed.
Lemma idm_spd : spd n idm.
Proof.
  split; [intros i j _ _; unfold idm; rewrite Nat.eqb_sym; reflexivity|]. intros x Nx. change (lt 0 (dotv x (CgModel.apply n idm x))).
  rewrite (CgProofs.dot_ext n x _ x x) by (auto using apply_idm). pose proof (dot_self_pos n x) as P. apply le_lt_eq in P. destruct P as [P|P]; [exact P|]. exfalso. apply Nx, dot_self_zero. auto.
Qed.
End Quadratic.

Section Simulation.
Context {K : ofield} (N1 : (r1 : K) <> r0) (n : nat) (f : list K -> K) (g : list K -> list K) (q : list K -> K) (QF : quadratic_function n f g q) (DQ : definite n q).
Context (value : list K -> result K) (gradient : list K -> result (list K)) (search : algo K -> result (number K)) (CI : criterion_is n value gradient search f g q).
Add Ring KringAcg2 : (rth K).
Local Open Scope cr_scope.
Notation A := (matrix n g).
Notation b := (rhs n g).
Notation At := (at_step n A (@idm K) b (vec (zero n))).
Notation X k := (s_x (At k)).
Notation R k := (s_r (At k)).
Notation D k := (s_d (At k)).
Notation delta k := (s_delta (At k)).
Notation dotv := (@CgModel.dot K n).
Notation iterate := (iterate value gradient search FletcherReeves).
Definition reads (x : list K) (v : nat -> K) : Prop := length x = n /\ forall i, (i < n)%nat -> nth i x 0 = v i.
Lemma SA : spd n A. Proof. exact (matrix_spd N1 n f g q QF DQ). Qed.
Lemma SM : spd n (@idm K). Proof. apply idm_spd. Qed.
Definition J (k : nat) (s : algo K) : Prop :=
  iter_ s = k /\ first_crit s = Some (f (zero n)) /\ (exists x, solution s = Some x /\ reads x (X k) /\ crit s = Some (f x)) /\
  match k with
  | O => True
  | S j => exists d x', descent s = Some d /\ reads d (fun i => two * D j i) /\ grad_norm s = Some (two * two * delta j) /\ grad s = Some (g x') /\ last_solution s = Some x' /\ reads x' (X j) /\ last_crit s = Some (f x')
  end.
Lemma start_J s0 : exists s, initialize n value s0 = Ok s /\ J 0 s.
Proof.
  unfold initialize. cbn [evaluate first_guess]. rewrite (ci_value _ _ _ _ _ _ _ CI) by apply repeat_length. cbn [rbind]. eexists. split; [reflexivity|].
  split; [reflexivity|]. split; [reflexivity|]. split; [|exact I]. exists (zero n). split; [reflexivity|]. split; [|reflexivity]. split; [apply zero_length|reflexivity].
Qed.
Lemma gradient_R x k i : reads x (X k) -> (i < n)%nat -> nth i (g x) 0 = - (two * R k i).
Proof.
  intros [L E] Hi. rewrite (gradient_affine N1 n f g q QF) by assumption. rewrite residual_ok. f_equal. f_equal. f_equal. apply apply_ext. intros j Hj. apply E, Hj.
Qed.
Lemma norm_R x k : reads x (X k) -> norm2 (g x) = two * two * delta k.
Proof.
  intros H. pose proof QF as (G & _ & _). pose proof H as [L _]. unfold norm2. rewrite (dot_vec n) by (apply G; exact L). rewrite delta_ok. unfold CgModel.dot. rewrite <- sum_mul_l. apply sum_ext.
  intros i Hi. change (vec (g x) i) with (nth i (g x) 0). rewrite (gradient_R x k) by assumption. rewrite apply_idm by exact Hi. ring.
Qed.
Lemma two2 : (two * two : K) <> 0. Proof. apply mul_neq; apply two_neq, N1. Qed.
Lemma div_scal (c a e : K) : c <> 0 -> e <> 0 -> div (c * a) (c * e) = div a e.
Proof.
  intros Hc He. assert (Hce : c * e <> 0) by (apply mul_neq; assumption).
  transitivity (div (c * a) (c * e) * (e * inv e)). { rewrite (inv_ok K e He). ring. }
  transitivity (inv c * inv e * (div (c * a) (c * e) * (c * e))).
  { transitivity ((c * inv c) * (div (c * a) (c * e) * (e * inv e))); [rewrite (inv_ok K c Hc); ring|ring]. }
  rewrite div_mul by exact Hce. unfold div. transitivity ((c * inv c) * (a * inv e)); [ring|rewrite (inv_ok K c Hc); ring].
Qed.
Lemma nth_opp x i : nth i (map ropp x) (0 : K) = - nth i x 0.
Proof. transitivity (nth i (map ropp x) (ropp (0 : K))); [f_equal; ring|apply map_nth]. Qed.
(** the gradient, its norm and the new direction *)
Lemma direction k s x : J k s -> (forall j, (j < k)%nat -> delta j <> 0) -> solution s = Some x -> exists s1 d, (t <- update_gradient gradient s ;; update_descent FletcherReeves (update_gradient_norm t)) = Ok s1 /\
  iter_ s1 = k /\ first_crit s1 = first_crit s /\ solution s1 = Some x /\ crit s1 = Some (f x) /\ descent s1 = Some d /\ reads d (fun i => two * D k i) /\ grad s1 = Some (g x) /\ grad_norm s1 = Some (two * two * delta k) /\ reads x (X k).
Proof.
  intros (I & F & (x' & Ex & Hx & C) & H) P E. rewrite Ex in E. injection E as ->. pose proof Hx as [Lx _]. pose proof QF as (G & _ & _). specialize (G x Lx).
  unfold update_gradient. rewrite Ex. cbn [evaluate]. rewrite (ci_gradient _ _ _ _ _ _ _ CI) by exact Lx. cbn [rbind]. unfold update_gradient_norm, set_gradient. cbn [grad option_map]. rewrite (norm_R x k Hx).
  unfold update_descent, set_gradient_norm. cbn [iter_ grad grad_norm solution descent crit first_crit last_solution last_grad last_grad_norm last_descent last_crit]. rewrite I. destruct k as [|k]; cbn [Nat.eqb].
  - exists (Algo (iter_ s) (solution s) (Some (g x)) (Some (two * two * delta 0)) (opposite (Some (g x))) (crit s) (first_crit s) (last_solution s) (grad s) (grad_norm s) (last_descent s) (last_crit s)), (map ropp (g x)).
    split; [unfold set_descent; cbn; rewrite I; reflexivity|]. cbn [iter_ grad grad_norm solution descent crit first_crit last_solution last_grad last_grad_norm last_descent last_crit].
    repeat split; try assumption; try (apply Hx). + rewrite map_length; exact G. + intros i Hi. rewrite nth_opp, (gradient_R x 0 i Hx Hi). change (D 0 i) with (CgModel.apply n (@idm K) (R 0) i). rewrite apply_idm by exact Hi. ring.
  - destruct H as (d & x'' & Ed & [Ld Hd] & En & _). unfold update. cbn [grad_norm last_grad_norm]. rewrite En. unfold divide. cbn [rbind].
    assert (Z : two * two * delta k <> 0) by (apply mul_neq; [exact two2|apply P; lia]). rewrite (eqb_false _ _ Z). rewrite div_scal by (exact two2 || (apply P; lia)).
    rewrite Ed. unfold axpy, opposite, option_map. eexists _, _. split; [unfold set_descent; cbn [iter_ grad grad_norm solution descent crit first_crit last_solution last_grad last_grad_norm last_descent last_crit]; reflexivity|]. cbn [iter_ grad grad_norm solution descent crit first_crit last_solution last_grad last_grad_norm last_descent last_crit].
    split; [reflexivity|]. split; [reflexivity|]. split; [exact Ex|]. split; [exact C|]. split; [reflexivity|]. split; [|auto].
    split; [rewrite map2_length; rewrite !map_length; congruence|]. intros i Hi. rewrite nth_map2 by (rewrite map_length; lia). rewrite nth_opp, nth_scal, Hd by exact Hi. rewrite (gradient_R x (S k) i Hx Hi). rewrite d_S. rewrite apply_idm by exact Hi. ring.
Qed.
Lemma quadratic_D d k : reads d (fun i => two * D k i) -> q d = two * two * dotv (D k) (CgModel.apply n A (D k)).
Proof.
  intros [L E]. rewrite (quadratic_part N1 n f g q QF d L). unfold CgModel.dot. rewrite <- sum_mul_l. apply sum_ext. intros i Hi. change (vec d i) with (nth i d 0). rewrite E by exact Hi.
  rewrite (apply_ext n A (vec d) (fun j => two * D k j)) by exact E. rewrite CgProofs.apply_scal. ring.
Qed.
Lemma iterate_eq s : iterate s = (s <- (t <- update_gradient gradient s ;; update_descent FletcherReeves (update_gradient_norm t)) ;; s <- update_solution search s ;; s <- update_criterion value s ;; Ok (set_iter s (S (iter_ s)))).
Proof. unfold AcgModel.iterate. destruct (update_gradient gradient s); reflexivity. Qed.
Lemma step_fine k s : J k s -> (forall j, (j <= k)%nat -> delta j <> 0) -> exists s', iterate s = Ok s' /\ J (S k) s'.
Proof.
  intros H P. pose proof H as (_ & F & (x & Ex & _) & _). destruct (direction k s x H) as (s1 & d & E1 & I & F1 & Ex1 & C1 & Ed & Hd & Eg & En & Hx); [intros; apply P; lia|exact Ex|].
  rewrite iterate_eq, E1. cbn [rbind]. pose proof Hd as [Ld Ed']. pose proof Hx as [Lx Ex']. pose proof QF as (G & _ & _). specialize (G x Lx).
  unfold update_solution. rewrite (ci_search _ _ _ _ _ _ _ CI s1 d (g x) Ed Eg Ld G). cbn [rbind].
  destruct (orthogonal_ok n A (@idm K) b (vec (zero n)) SA SM k) as (_ & P2 & _); [intros; apply P; lia|].
  set (w := dotv (D k) (CgModel.apply n A (D k))) in *. assert (W : w <> 0). { apply CgProofs.definite; [exact SA|]. apply (CgProofs.not_null n (R k)). rewrite P2 by lia. apply P; lia. }
  assert (Q : q d = two * two * w) by (apply quadratic_D, Hd). assert (Z : q d <> 0) by (rewrite Q; apply mul_neq; [exact two2|exact W]). rewrite (eqb_false _ _ Z).
  assert (S : div (- div (CritModel.dot d (g x)) two) (q d) = half * div (delta k) w).
  { assert (E : CritModel.dot d (g x) = - (two * two * delta k)).
    { rewrite (dot_vec n) by assumption. rewrite <- (P2 k) by lia. unfold CgModel.dot. transitivity (- (two * two) * sum n (fun i => R k i * D k i)); [|ring]. rewrite <- sum_mul_l. apply sum_ext. intros i Hi. change (vec d i) with (nth i d 0). change (vec (g x) i) with (nth i (g x) 0). rewrite Ed' by exact Hi. rewrite (gradient_R x k i Hx Hi). ring. }
    rewrite E, Q. transitivity (div (two * two * (half * delta k)) (two * two * w)).
    - f_equal. unfold div. change (inv two) with (@half K). ring.
    - rewrite div_scal by (exact two2 || exact W). unfold div. ring. }
  rewrite S, Ed, Ex1. unfold axpy. set (y := map2 radd x (map (fun t => half * div (delta k) w * t) d)).
  assert (Hy : reads y (X (Datatypes.S k))). { split; [unfold y; rewrite map2_length; rewrite ?map_length; congruence|]. intros i Hi. unfold y. rewrite nth_map2 by (rewrite ?map_length; lia). rewrite nth_scal, Ed', Ex' by exact Hi. rewrite x_S. fold w. transitivity (X k i + (two * half) * (div (delta k) w * D k i)); [ring|]. rewrite (half_two N1). ring. }
  unfold update_criterion, set_solution. cbn [solution rbind evaluate]. rewrite (ci_value _ _ _ _ _ _ _ CI y (proj1 Hy)). cbn [rbind]. eexists. split; [reflexivity|].
  unfold J, set_criterion, set_iter. cbn [iter_ grad grad_norm solution descent crit first_crit last_solution last_grad last_grad_norm last_descent last_crit].
  split; [rewrite I; reflexivity|]. split; [rewrite F1; exact F|]. split; [exists y; auto|]. exists d, x. rewrite Ex1. repeat split; auto.
Qed.
Lemma step_last k s : J k s -> (forall j, (j < k)%nat -> delta j <> 0) -> delta k = 0 -> exists s', iterate s = Ok s' /\ iter_ s' = S k /\ solution s' = None /\ crit s' = None /\ grad_norm s' = Some 0 /\ first_crit s' = Some (f (zero n)).
Proof.
  intros H P Z. pose proof H as (_ & F & (x & Ex & _) & _). destruct (direction k s x H P Ex) as (s1 & d & E1 & I & F1 & Ex1 & C1 & Ed & Hd & Eg & En & Hx).
  rewrite iterate_eq, E1. cbn [rbind]. pose proof Hd as [Ld Ed']. pose proof Hx as [Lx Ex']. pose proof QF as (G & _ & _). specialize (G x Lx).
  unfold update_solution. rewrite (ci_search _ _ _ _ _ _ _ CI s1 d (g x) Ed Eg Ld G). cbn [rbind].
  assert (Q : q d = 0). { rewrite (quadratic_D d k Hd). rewrite (CgProofs.dot_null n (D k)); [ring|]. apply (null_direction n A (@idm K) b (vec (zero n)) SM k Z). }
  rewrite Q. pose proof (eqb_spec (0 : K) 0) as E0. destruct (eqb 0 0); [|contradiction]. rewrite Ex1, Ed. cbn [axpy]. unfold update_criterion, set_solution. cbn [solution rbind evaluate].
  eexists. split; [reflexivity|]. cbn. rewrite I, En, Z, F1, F. repeat split; try reflexivity. f_equal. ring.
Qed.
Lemma step_none s s' : solution s = None -> iterate s = Ok s' -> solution s' = None.
Proof.
  intros E H. unfold AcgModel.iterate in H. unfold update_gradient in H. rewrite E in H. cbn [evaluate rbind] in H.
  destruct (update_descent FletcherReeves _) as [s1|] eqn:E1; [|discriminate]. cbn [rbind] in H.
  assert (Es : solution s1 = None). { unfold update_descent in E1. destruct (Nat.eqb _ 0); [injection E1 as <-; exact E|]. destruct (update _ _); [|discriminate]. injection E1 as <-. exact E. }
  unfold update_solution in H. destruct (search s1); [|discriminate]. cbn [rbind] in H. rewrite Es in H. cbn [axpy] in H. unfold update_criterion, set_solution in H. cbn in H. injection H as <-. reflexivity.
Qed.

Notation after := (after n value gradient search FletcherReeves).
Lemma after_fine s0 k : (forall j, (j < k)%nat -> delta j <> 0) -> exists s, after s0 k = Ok s /\ J k s.
Proof.
  induction k as [|k IH]; intros P; [apply start_J|]. destruct IH as (s & E & H); [intros; apply P; lia|]. cbn [AcgSpec.after]. rewrite E. cbn [rbind]. apply step_fine; [exact H|]. intros; apply P; lia.
Qed.
Lemma dec_delta k : (forall j, (j < k)%nat -> delta j <> 0) \/ exists j, (j < k)%nat /\ delta j = 0 /\ forall i, (i < j)%nat -> delta i <> 0.
Proof.
  induction k as [|k [IH|(j & L & Z & P)]]; [left; intros; lia| |right; exists j; repeat split; auto]. destruct (eq_dec (delta k) 0) as [E|E]; [right; exists k; auto|].
  left. intros j Hj. destruct (Nat.eq_dec j k) as [->|]; [exact E|apply IH; lia].
Qed.
(** the algorithm goes on with finite numbers as long as the gradient is not zero *)
Lemma after_spec s0 k s : after s0 k = Ok s -> (J k s /\ forall j, (j < k)%nat -> delta j <> 0) \/ (solution s = None /\ exists j, (j < k)%nat /\ delta j = 0).
Proof.
  revert s. induction k as [|k IH]; intros s E.
  - left. destruct (start_J s0) as (t & Et & H). cbn in E. rewrite Et in E. injection E as <-. split; [exact H|intros; lia].
  - cbn [AcgSpec.after] in E. destruct (after s0 k) as [t|] eqn:Et; [|discriminate]. cbn [rbind] in E. destruct (IH t eq_refl) as [[H P]|[H (j & L & Z)]].
    + destruct (eq_dec (delta k) 0) as [Z|Z].
      * destruct (step_last k t H P Z) as (s' & E' & _ & S & _). rewrite E in E'. injection E' as <-. right. split; [exact S|]. exists k. auto.
      * assert (P' : forall j, (j < S k)%nat -> delta j <> 0). { intros j Hj. destruct (Nat.eq_dec j k) as [->|]; [exact Z|apply P; lia]. }
        destruct (step_fine k t H) as (s' & E' & H'); [intros; apply P'; lia|]. rewrite E in E'. injection E' as <-. left. auto.
    + right. split; [exact (step_none t s H E)|]. exists j. split; [lia|exact Z].
Qed.
Lemma some_zero : exists j, (j <= n)%nat /\ delta j = 0 /\ forall i, (i < j)%nat -> delta i <> 0.
Proof. destruct (dec_delta (S n)) as [P|(j & L & Z & P)]; [|exists j; repeat split; auto; lia]. exfalso. apply (too_many n A (@idm K) b (vec (zero n)) SA SM N1). intros; apply P; lia. Qed.
End Simulation.
