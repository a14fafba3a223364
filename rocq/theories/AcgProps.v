(** C43: the conjugate gradient of criteria. *)
From Coq Require Import QArith Qcanon.
From Verif Require Import Base Algebra Ofield CritModel CritSpec CritSums CritCalc AcgModel AcgSpec AcgProofs AcgFacts.
Local Open Scope nat_scope.

(** * Any criterion, line search and update
    What the attributes are after each iteration: the criterion is the one of the current solution, and the gradient and its squared norm are those of the previous solution. *)
Section General.
Context (K : ofield) (n : nat) (f : list K -> K) (g : list K -> list K) (value : list K -> result K) (gradient : list K -> result (list K)) (search : algo K -> result (number K)) (type : update_type) (s0 : algo K).
Context (V : forall x, length x = n -> value x = Ok (f x)) (G : forall x, length x = n -> gradient x = Ok (g x)) (L : forall x, length x = n -> length (g x) = n).
Notation after := (after n value gradient search type s0).
Theorem C43_attributes : forall k s x, after k = Ok s -> solution s = Some x -> length x = n /\ iter_ s = k /\ crit s = Some (f x) /\
  forall j, k = S j -> exists t y d a, after j = Ok t /\ solution t = Some y /\ last_solution s = Some y /\ last_crit s = Some (f y) /\ grad s = Some (g y) /\ grad_norm s = Some (norm2 (g y)) /\ descent s = Some d /\ x = along y a d.
Proof.
  intros k s x E Ex. destruct (after_sized n f g value gradient search type s0 V G L k s E) as [[S1 _] I]. destruct (S1 x Ex) as [Lx C]. split; [exact Lx|]. split; [exact I|]. split; [exact C|].
  intros j ->. destruct (after_moves n f g value gradient search type s0 V G L j s E) as (t & Et & _ & _ & El & M). destruct (M x Ex) as (y & d & a & s1 & Ey & Eg & En & Ed & Ec & _ & _ & _ & _ & Exy).
  exists t, y, d, a. rewrite El. repeat split; assumption.
Qed.
(** The method run stops after the first iteration that satisfies the stop condition. *)
Theorem C43_run : forall fuel c r, run n value gradient search type fuel c s0 = Ok (Some r) ->
  exists k, 1 <= k <= S fuel /\ after k = Ok r /\ stops c r = true /\ forall i t, 1 <= i < k -> after i = Ok t -> stops c t = false.
Proof. intros fuel c r. apply run_after. Qed.
(** The number of iterations is at most maxiter, but for the first one, and exactly maxiter without other condition. *)
Theorem C43_maxiter : forall fuel c m r, cond_all c = false -> maxiter c = Some m -> run n value gradient search type fuel c s0 = Ok (Some r) ->
  1 <= iter_ r <= Nat.max 1 m /\ (tol c = None -> gtol c = None -> iter_ r = Nat.max 1 m).
Proof.
  intros fuel c m r Hc Hm H. destruct (run_after _ _ _ _ _ _ _ _ _ H) as (k & Hk & Ek & Sk & Before). destruct (after_sized n f g value gradient search type s0 V G L k r Ek) as [_ Ik]. rewrite Ik.
  assert (Hi : k <= Nat.max 1 m).
  { destruct (le_gt_dec k (Nat.max 1 m)) as [|B]; [assumption|exfalso]. destruct k as [|i]; [lia|]. cbn [AcgSpec.after] in Ek. destruct (after i) as [t|] eqn:Et; [|discriminate]. pose proof (Before i t ltac:(lia) Et) as F.
    destruct (after_sized n f g value gradient search type s0 V G L i t Et) as [_ It]. unfold stops, tests in F. rewrite Hc, Hm, It in F. cbn [app existsb] in F. destruct (Nat.leb_spec m i); [discriminate|lia]. }
  split; [lia|]. intros T1 T2. unfold stops, tests in Sk. rewrite Hc, Hm, T1, T2, Ik in Sk. cbn [app existsb id] in Sk. destruct (Nat.leb_spec m k); [lia|discriminate].
Qed.
End General.
(** A new call of the method run gives the same result, whatever has been done before. *)
Theorem C43_again : forall (K : ofield) n value gradient search type fuel c (s t : algo K),
  (forall s t, solution s = solution t -> grad s = grad t -> descent s = descent t -> crit s = crit t -> search s = search t) ->
  (r <- run n value gradient search type fuel c s ;; Ok (option_map (fun r => (iter_ r, solution r, crit r)) r)) = (r <- run n value gradient search type fuel c t ;; Ok (option_map (fun r => (iter_ r, solution r, crit r)) r)).
Proof. intros K n value gradient search type fuel c s t H. apply run_again, H. Qed.

(** * Quadratic criteria, optimal step and Fletcher-Reeves update *)
Section Quadratic.
Context (K : ofield) (N1 : (r1 : K) <> r0) (n : nat) (f : list K -> K) (g : list K -> list K) (q : list K -> K) (QF : quadratic_function n f g q) (DQ : definite n q).
Context (value : list K -> result K) (gradient : list K -> result (list K)) (search : algo K -> result (number K)) (CI : criterion_is n value gradient search f g q) (s0 : algo K).
Notation after := (after n value gradient search FletcherReeves s0).
(** No iteration raises, and the solution is made of numbers as long as no previous iterate is exactly the minimum. *)
Theorem C43_finite : forall k s, after k = Ok s -> (solution s <> None <-> forall j t y, j < k -> after j = Ok t -> solution t = Some y -> g y <> repeat r0 n).
Proof. intros k s. apply (finite_iff N1 n f g q QF DQ value gradient search CI). Qed.
(** The criterion decreases. *)
Theorem C43_decreases : forall k s x t y, after (S k) = Ok s -> solution s = Some x -> after k = Ok t -> solution t = Some y -> lt (f x) (f y).
Proof. intros k s x t y. apply (decreases N1 n f g q QF DQ value gradient search CI). Qed.
(** The gradients are orthogonal to the previous gradients and directions, and the directions are conjugate. *)
Theorem C43_orthogonal : forall j k s x t y, j < k -> after k = Ok s -> solution s = Some x -> after j = Ok t -> solution t = Some y -> dot (g x) (g y) = r0.
Proof. intros j k s x t y. apply (orthogonal_gradient N1 n f g q QF DQ value gradient search CI). Qed.
Theorem C43_directions : forall j k s x t y d, j < k -> after k = Ok s -> solution s = Some x -> after (S j) = Ok t -> solution t = Some y -> descent t = Some d -> dot (g x) d = r0.
Proof. intros j k s x t y d. apply (orthogonal_direction N1 n f g q QF DQ value gradient search CI). Qed.
Theorem C43_conjugate : forall j k s x c t y d, j < k -> after (S k) = Ok s -> solution s = Some x -> descent s = Some c -> after (S j) = Ok t -> solution t = Some y -> descent t = Some d -> q (map2 radd c d) = radd (q c) (q d).
Proof. intros j k s x c t y d. apply (conjugate N1 n f g q QF DQ value gradient search CI). Qed.
(** Each iterate is the best one that can be reached along the directions used up to now. *)
Theorem C43_optimal : forall k s x c ds, after k = Ok s -> solution s = Some x -> (forall d, In d ds -> exists j t, j < k /\ after (S j) = Ok t /\ descent t = Some d) -> le (f x) (f (moved x c ds)).
Proof. intros k s x c ds. apply (optimal_moved N1 n f g q QF DQ value gradient search CI). Qed.
(** After n iterations the solution is the minimum. *)
Theorem C43_exact : forall s x, after n = Ok s -> solution s = Some x -> g x = repeat r0 n /\ minimum n f x.
Proof. intros s x. apply (exact_solution N1 n f g q QF DQ value gradient search CI). Qed.
(** If an iteration yields numbers that are not finite, the previous one had reached the minimum. *)
Theorem C43_lost : forall k t y s, after k = Ok t -> solution t = Some y -> after (S k) = Ok s -> solution s = None -> minimum n f y.
Proof. intros k t y s. apply (nan_after N1 n f g q QF DQ value gradient search CI). Qed.
(** With a positive tolerance on the gradient, the method run ends after at most n + 1 iterations. *)
Theorem C43_ends : forall c e fuel, cond_all c = false -> gtol c = Some e -> lt r0 e -> n <= fuel -> exists r, run n value gradient search FletcherReeves fuel c s0 = Ok (Some r) /\ iter_ r <= S n.
Proof.
  intros c e fuel Hc He P Hf. assert (R : exists r, run n value gradient search FletcherReeves n c s0 = Ok (Some r)).
  { destruct (gtol_ends N1 n f g q QF DQ value gradient search CI s0 c e Hc He P) as (m & r & Hm & Er & S). exact (run_ends n f g value gradient search FletcherReeves s0 (ci_value _ _ _ _ _ _ _ CI) (ci_gradient _ _ _ _ _ _ _ CI) (proj1 QF) c m r n Er S Hm). }
  destruct R as (r & R). exists r. split; [apply (run_more n value gradient search FletcherReeves n fuel); assumption|].
  destruct (run_after n value gradient search FletcherReeves s0 c n r R) as (k & Hk & Ek & _). destruct (after_sized n f g value gradient search FletcherReeves s0 (ci_value _ _ _ _ _ _ _ CI) (ci_gradient _ _ _ _ _ _ _ CI) (proj1 QF) k r Ek) as [_ I]. lia.
Qed.
End Quadratic.
(** These are the criteria made of norms Norm2 of linear operators, as [quadratic_criterion] makes them. *)
Theorem C43_quadratic_criterion : forall (K : ofield) n (es : list (element K)) l, every (linear_element quadratic2 n) es (Cr l) -> flat l ->
  criterion_is n (CritSpec.value es (Cr l)) (CritSpec.gradient es (Cr l)) (search_optimal es l) (crit_value es l) (crit_gradient es l) (crit_quadratic es l) /\ quadratic_function n (crit_value es l) (crit_gradient es l) (crit_quadratic es l).
Proof. intros K n es l. apply quadratic_criterion_ok. Qed.
(** Least squares: the function acg without priors; the model is a matrix whose columns are independent. *)
Theorem C43_least_squares : forall (K : ofield) (N1 : (r1 : K) <> r0) m n (O : nat -> nat -> K) model data es c s0, is_matrix m n O model -> length (snd data) = m -> quadratic_criterion model data [] [] None = Ok (es, c) ->
  (forall x, length x = n -> matvec m n O x = repeat r0 m -> x = repeat r0 n) ->
  exists l, c = Cr l /\ (forall x, length x = n -> crit_value es l x = norm2 (map2 rsub (matvec m n O x) (snd data))) /\
  forall s x, after n (CritSpec.value es c) (CritSpec.gradient es c) (search_optimal es l) FletcherReeves s0 n = Ok s -> solution s = Some x -> minimum n (fun x => norm2 (map2 rsub (matvec m n O x) (snd data))) x.
Proof. intros K N1 m n O model data es c s0. apply least_squares, N1. Qed.

(** * Huber and quadratic norms: the criterion never increases *)
Theorem C43_no_increase : forall (K : ofield) (N1 : (r1 : K) <> r0) n f g q value gradient search type s0, criterion_is (K := K) n value gradient search f g q -> majorised n f g q ->
  forall k s x, after n value gradient search type s0 (S k) = Ok s -> solution s = Some x -> exists t y, after n value gradient search type s0 k = Ok t /\ solution t = Some y /\ le (f x) (f y).
Proof. intros K N1 n f g q value gradient search type s0 CI MJ k s x. apply (no_increase N1 n f g q value gradient search type s0 CI MJ). Qed.
Theorem C43_huber_criterion : forall (K : ofield) n (es : list (element K)) l, every (linear_element below_quadratic n) es (Cr l) -> flat l ->
  criterion_is n (CritSpec.value es (Cr l)) (CritSpec.gradient es (Cr l)) (search_optimal es l) (crit_value es l) (crit_gradient es l) (crit_quadratic es l) /\ majorised n (crit_value es l) (crit_gradient es l) (crit_quadratic es l).
Proof. intros K n es l. apply criterion_is_ok. auto. Qed.
Theorem C43_huber_norms : forall (K : ofield) m, (forall delta : K, le r0 delta -> below_quadratic m (make_huber (Some delta))) /\
  (forall N : norm K, quadratic2 m N -> (forall h, length h = m -> le r0 (n_call N h)) -> below_quadratic m N).
Proof. intros K m. split; [intros delta; apply huber_below|intros N; apply quadratic2_below]. Qed.

(** * Examples *)
Definition q (z : Z) (p : positive) : Qf := Q2Qc (Qmake z p).
Lemma Q1 : (r1 : Qf) <> r0. Proof. intros E. apply (f_equal this) in E. discriminate. Qed.
(** the matrix 1 2 / 0 1 / 1 0 *)
Definition O_ex (i j : nat) : Qf := match i, j with 0, 0 | 1, 1 | 2, 0 => q 1 1 | 0, 1 => q 2 1 | _, _ => q 0 1 end.
Definition op (m n : nat) (O : nat -> nat -> Qf) : oper Qf := Oper (Some [n]) (Some [m])
  (fun x => if Nat.eqb (length x) n then Ok (matvec m n O x) else Raise ValueError) (fun x => if Nat.eqb (length x) m then Ok (matvec n m (transposed O) x) else Raise ValueError).
Lemma op_ok m n O : is_matrix m n O (op m n O).
Proof. split; intros x Hx; cbn [op o_call o_T]; rewrite Hx, Nat.eqb_refl; reflexivity. Qed.
Definition es_ex : list (element Qf) := [Element (make_norm2 None) (op 3 2 O_ex) (Some [q 1 1; q 3 1; q 2 1])].
Definition after_ex (es : list (element Qf)) l n k := after n (CritSpec.value es (Cr l)) (CritSpec.gradient es (Cr l)) (search_optimal es l) FletcherReeves (construct None) k.
Definition shown (r : result (algo Qf)) : option (option (list Q) * option Q) := match r with Ok s => Some (option_map (map this) (solution s), option_map this (crit s)) | Raise _ => None end.
Lemma sum_a (a b : Qc) : (0 + 1 * a + 0 * b = a)%Qc. Proof. ring. Qed.
Lemma sum_b (a b : Qc) : (0 + 0 * a + 1 * b = b)%Qc. Proof. ring. Qed.
Lemma injective_ex : forall x, length x = 2 -> matvec 3 2 O_ex x = repeat r0 3 -> x = repeat r0 2.
Proof.
  intros [|a [|b [|]]] Hx; try discriminate. intros E.
  assert (A : a = r0). { transitivity (nth 2 (matvec 3 2 O_ex [a; b]) r0); [symmetry; exact (sum_a a b)|rewrite E; reflexivity]. }
  assert (B : b = r0). { transitivity (nth 1 (matvec 3 2 O_ex [a; b]) r0); [symmetry; exact (sum_b a b)|rewrite E; reflexivity]. }
  rewrite A, B. reflexivity.
Qed.
Example C43_least_squares_example : quadratic_criterion (op 3 2 O_ex) ([3], [q 1 1; q 3 1; q 2 1]) [] [] None = Ok (es_ex, Cr [El 0]) /\ is_matrix 3 2 O_ex (op 3 2 O_ex) /\
  (forall x, length x = 2 -> matvec 3 2 O_ex x = repeat r0 3 -> x = repeat r0 2) /\
  map (fun k => shown (after_ex es_ex [El 0] 2 k)) [0; 1; 2; 3] =
  [Some (Some [0; 0], Some 14); Some (Some [102 # 203; 170 # 203], Some (1686 # 203)); Some (Some [5 # 6; 2 # 3], Some (49 # 6)); Some (None, None)]%Q.
Proof. split; [reflexivity|]. split; [apply op_ok|]. split; [exact injective_ex|]. vm_compute. reflexivity. Qed.
(** the hypotheses of the theorems about quadratic criteria *)
Example C43_quadratic_example : every (linear_element quadratic2 2) es_ex (Cr [El 0]) /\ flat [El 0] /\ definite 2 (crit_quadratic es_ex [El 0]).
Proof.
  split. { split; [discriminate|]. split; [|exact I]. exists 3, O_ex. split; [apply op_ok|]. split; [|reflexivity]. split; [reflexivity|]. apply quadratic_norm2. }
  split; [apply Forall_cons; [eexists; reflexivity|apply Forall_nil]|]. apply (matrix_definite (K := Qf) 3 2 O_ex); [apply op_ok|exact injective_ex].
Qed.
Definition default_ex : stop Qf := Stop None (Some (q 1 1000000)) (Some (q 1 1000000)) false.
Definition run_ex (es : list (element Qf)) l n fuel c := run n (CritSpec.value es (Cr l)) (CritSpec.gradient es (Cr l)) (search_optimal es l) FletcherReeves fuel c (construct None).
(** the number of iterations, the solution and the gradient *)
Definition outcome_ex (r : result (option (algo Qf))) : option (nat * option (list Q) * option (list Q)) :=
  match r with Ok (Some s) => Some (iter_ s, option_map (map this) (solution s), option_map (map this) (grad s)) | _ => None end.
(** with the default stop condition but a larger tolerance *)
Example C43_run_example : outcome_ex (run_ex es_ex [El 0] 2 9 (Stop None (Some (q 1 50)) (Some (q 1 100)) false)) = Some (2%nat, Some [5 # 6; 2 # 3], Some [-130 # 203; 78 # 203])%Q.
Proof. vm_compute. reflexivity. Qed.
(** a Huber criterion with a prior *)
Definition huber_ex : list (element Qf) := [Element (make_huber (Some (q 1 1))) (op 3 2 O_ex) (Some [q 1 1; q 3 1; q 2 1]); Element (make_norm2 None) (op 3 2 O_ex) None].
Example C43_huber_example : every (linear_element below_quadratic 2) huber_ex (Cr [El 0; El 1]) /\ flat [El 0; El 1] /\
  map (fun k => option_map snd (shown (after_ex huber_ex [El 0; El 1] 2 k))) [0; 1] = [Some (Some 9); Some (Some (185221 # 23716))]%Q.
Proof.
  split. { split; [discriminate|]. split; [|split; [|exact I]]; (exists 3, O_ex; split; [apply op_ok|]; split); try exact I; try reflexivity.
    - apply (proj1 (C43_huber_norms Qf 3)). vm_compute. reflexivity.
    - apply (proj2 (C43_huber_norms Qf 3)); [split; [reflexivity|apply quadratic_norm2]|]. intros h _. apply dot_nonneg. }
  split; [repeat (apply Forall_cons; [eexists; reflexivity|]); apply Forall_nil|]. vm_compute. reflexivity.
Qed.

(** * False claims *)
Definition identity_ex (n : nat) (data : list Qf) : list (element Qf) := [Element (make_norm2 None) (op n n (fun i j => if Nat.eqb i j then r1 else r0)) (Some data)].
(** ConjugateGradient returns NaN when it finds the exact minimum, which it does for the identity model and the default stop condition: the next iteration divides 0 by 0. *)
Theorem C43_nan_refuted : shown (after_ex (identity_ex 1 [q 1 1]) [El 0] 1 1) = Some (Some [1], Some 0)%Q /\
  outcome_ex (run_ex (identity_ex 1 [q 1 1]) [El 0] 1 9 default_ex) = Some (2%nat, None, Some [0])%Q.
Proof. split; vm_compute; reflexivity. Qed.
(** ConjugateGradient with a tolerance on the criterion only does not end after the exact minimum: the residual is NaN. *)
Theorem C43_tolerance_refuted : forall fuel, run_ex (identity_ex 1 [q 1 1]) [El 0] 1 fuel (Stop None (Some (q 1 1000000)) None false) = Ok None.
Proof.
  intros fuel. unfold run_ex. apply run_lost_computed; [|vm_compute; reflexivity|vm_compute; reflexivity].
  intros s H. unfold search_optimal. rewrite H. destruct (descent s); reflexivity.
Qed.
(** The stop condition without test, StopCondition(), never ends. *)
Theorem C43_unconditional_refuted : forall (K : ofield) n value gradient search type fuel (s r : algo K), run n value gradient search type fuel (Stop None None None false) s <> Ok (Some r).
Proof. intros K n value gradient search type fuel s r H. apply run_after in H. destruct H as (k & _ & _ & H & _). discriminate. Qed.
(** The argument x0 of ConjugateGradient is ignored: the algorithm starts from zero. *)
Theorem C43_guess_refuted : forall (K : ofield) n value x0 (s : algo K), initialize n value (construct (Some x0)) = Ok s -> solution s = Some (repeat r0 n).
Proof. intros K n value x0 s. unfold initialize. destruct (evaluate value _); [|discriminate]. cbn [rbind]. intros E. injection E as <-. reflexivity. Qed.
(** The argument gtol of StopCondition is compared to the square of the norm of the gradient, and the gradient is not that of the solution: here the norm of the gradient is 1/3 and gtol is 1/4. *)
Theorem C43_gtol_refuted : outcome_ex (run_ex (identity_ex 1 [q 1 6]) [El 0] 1 9 (Stop None None (Some (q 1 4)) false)) = Some (1%nat, Some [1 # 6], Some [-1 # 3])%Q.
Proof. vm_compute. reflexivity. Qed.
(** ConjugateGradient with update_type=polak_ribiere raises AttributeError at the second iteration: there is no function numpy.norm. *)
Theorem C43_polak_ribiere_refuted : let es := es_ex in after 2 (CritSpec.value es (Cr [El 0])) (CritSpec.gradient es (Cr [El 0])) (search_optimal es [El 0]) PolakRibiere (construct None) 2 = Raise AttributeError.
Proof. vm_compute. reflexivity. Qed.
(** The method __call__ of the algorithms, unlike run, does not return the solution. *)
Theorem C43_call_refuted : forall (K : ofield) n value gradient search type fuel c (s : algo K) r v, call n value gradient search type fuel c s = Ok (Some (r, v)) -> v = None.
Proof. intros K n value gradient search type fuel c s r v. unfold call. destruct (run n value gradient search type fuel c s) as [[t|]|]; [|discriminate|discriminate]. cbn [rbind option_map]. intros E. injection E as _ <-. reflexivity. Qed.
(** hacg may increase the criterion: the optimal step does not take the hyperparameters of Huber norms into account. *)
Theorem C43_huber_increase_refuted : exists es c, huber_criterion (op 1 1 (fun _ _ => r1)) ([1], [q 1 1]) [q 4 1] [op 1 1 (fun _ _ => r1)] [q 10 1; q 10 1] = Ok (es, Cr c) /\
  map (fun k => option_map snd (shown (after_ex es c 1 k))) [0; 1] = [Some (Some 1); Some (Some (5 # 4))]%Q.
Proof. do 2 eexists. split; [reflexivity|]. vm_compute. reflexivity. Qed.

Print Assumptions C43_attributes.
Print Assumptions C43_run.
Print Assumptions C43_again.
Print Assumptions C43_finite.
Print Assumptions C43_decreases.
Print Assumptions C43_orthogonal.
Print Assumptions C43_directions.
Print Assumptions C43_conjugate.
Print Assumptions C43_optimal.
Print Assumptions C43_exact.
Print Assumptions C43_lost.
Print Assumptions C43_ends.
Print Assumptions C43_quadratic_criterion.
Print Assumptions C43_least_squares.
Print Assumptions C43_no_increase.
Print Assumptions C43_huber_criterion.
Print Assumptions C43_huber_norms.
Print Assumptions C43_nan_refuted.
Print Assumptions C43_tolerance_refuted.
Print Assumptions C43_unconditional_refuted.
Print Assumptions C43_guess_refuted.
Print Assumptions C43_gtol_refuted.
Print Assumptions C43_polak_ribiere_refuted.
Print Assumptions C43_call_refuted.
Print Assumptions C43_huber_increase_refuted.
Print Assumptions C43_maxiter.
