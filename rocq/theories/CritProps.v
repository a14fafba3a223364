(** C42: criteria and line searches. *)
From Coq Require Import QArith Qcanon.
From Verif Require Import Base Algebra Ofield CritModel CritSpec CritProofs CritSums CritCalc.
Close Scope Qc_scope. Close Scope Q_scope. Local Open Scope nat_scope.

(** * Evaluations *)
(** Whatever was evaluated before, and if the arrays have been changed in place since: the outputs are those of criteria without cache.
    The arrays have the same positive size n and the operators accept them. *)
Theorem C42_history : forall (K : ofield) strict n (l : list (event K)), 1 <= n -> Forall (proper n) l -> run strict start l = ideal_run ideal_start l.
Proof. intros K strict n l H F. exact (run_ok strict n H l start ideal_start (inv_start n) F). Qed.

(** Multiples and sums of criteria, as functions; their gradients, if the transposes are linear *)
Theorem C42_scale : forall (K : ofield) (k : K) es a, every (fun _ => True) es a -> let '(es', b) := scale k es a in
  (exists m, es' = es ++ m) /\ (forall x, value es' b x = scaled k (value es a x)) /\
  (forall x, every (fun e => forall y, o_T (e_op e) (map (fun t => rmul k t) y) = scaled_array k (o_T (e_op e) y)) es a -> gradient es' b x = scaled_array k (gradient es a x)).
Proof. intros K k es a V. pose proof (scale_ok k a es V) as H. destruct (scale k es a) as [es' b]. destruct H as (M & _ & E & G). auto. Qed.
Theorem C42_add : forall (K : ofield) (es : list (element K)) a b c, add es a b = Ok c -> forall x,
  value es c x = summed (value es a x) (value es b x) /\
  (every (fun _ => True) es a -> every (fun _ => True) es b -> forall u v, gradient es a x = Ok u -> gradient es b x = Ok v -> length u = length v -> gradient es c x = Ok (map2 radd u v)).
Proof. intros K es a b c E x. split; [apply add_value, E|]. intros Va Vb u v. apply (add_gradient es a b c x u v Va Vb E). Qed.
Theorem C42_add_zero : forall (K : ofield) (es : list (element K)) a c, add_zero es a = Ok c -> forall x, value es c x = value es a x.
Proof. intros K es a c E x. apply add_zero_value, E. Qed.
(** quadratic_criterion, huber_criterion and normp_criterion: the norm of model(x) - data plus the sum of the hyperparameters times the norms of the priors *)
Theorem C42_penalised : forall (K : ofield) (norms : list (norm K)) model data hypers priors es c, criterion_of norms model data hypers priors = Ok (es, c) ->
  exists N norms', norms = N :: norms' /\ forall x, value es c x = (v <- element_value (Element N model (Some (snd data))) x ;; w <- penalty norms' hypers priors x ;; Ok (radd v w)).
Proof. intros K norms model data hypers priors es c E. destruct (criterion_ok _ _ _ _ _ _ _ E) as (N & norms' & H1 & _ & H2). eauto. Qed.
Theorem C42_penalised_succeeds : forall (K : ofield) (N : norm K) norms model data hypers priors m, o_out model = Some [m] -> fst data = [m] -> Forall (fun o => o_in o = o_in model) priors ->
  exists es c, criterion_of (N :: norms) model data hypers priors = Ok (es, c).
Proof. intros K. apply criterion_succeeds. Qed.

(** * Gradients *)
Section Gradients.
Context (K : ofield) (N1 : (r1 : K) <> r0).
(** The diff methods of the norms are their gradients. *)
Theorem C42_norm2 : forall m, smooth m (make_norm2 (K := K) None).
Proof. apply norm2_smooth, N1. Qed.
Theorem C42_norm2_covariance : forall m (O : nat -> nat -> K) C, (forall i j, i < m -> j < m -> O i j = O j i) -> (forall y, length y = m -> C y = matvec m m O y) -> smooth m (make_norm2 (Some C)).
Proof. intros m O C. apply (norm2_C_smooth N1). Qed.
Theorem C42_huber : forall m delta, le r0 delta -> smooth m (make_huber (K := K) (Some delta)).
Proof. intros m delta. apply huber_smooth, N1. Qed.
Theorem C42_huber_default : forall m, smooth m (make_huber (K := K) None).
Proof. apply norm2_smooth, N1. Qed.
(** more precisely: the Huber function is convex, above its tangents, and at most at the distance s^2 *)
Theorem C42_huber_tangent : forall delta t s : K, le r0 delta ->
  le r0 (rsub (rsub (huber1 delta (radd t s)) (huber1 delta t)) (rmul (dhuber1 delta t) s)) /\ le (rsub (rsub (huber1 delta (radd t s)) (huber1 delta t)) (rmul (dhuber1 delta t) s)) (rmul s s).
Proof. intros delta t s. apply huber_bounds. Qed.
Theorem C42_normp : forall m p, 2 <= p -> smooth m (make_normp (K := K) p).
Proof. intros m p. apply normp_smooth, N1. Qed.
Theorem C42_norm_mul : forall m c N, smooth m N -> smooth (K := K) m (norm_mul c N).
Proof. intros m c N. apply mul_smooth. Qed.
(** The diff method of a criterion is its gradient. *)
Theorem C42_gradient : forall n (es : list (element K)) c x, every (linear_element smooth n) es c -> length x = n ->
  exists g, gradient es c x = Ok g /\ is_gradient (fun y => ok_value (value es c y)) x g.
Proof. intros n es c x. apply criterion_gradient, N1. Qed.

(** * Line searches *)
(** The optimal step minimises a quadratic criterion along the direction. *)
Theorem C42_optimal : forall n (es : list (element K)) l x d g a q, every (linear_element quadratic2 n) es (Cr l) -> length x = n -> length d = n ->
  gradient es (Cr l) x = Ok g -> optimal_sum es l d = Ok q -> lt r0 q -> optimal_step es l d g = Ok (Some a) ->
  forall b, le (ok_value (value es (Cr l) (map2 radd x (map (fun t => rmul a t) d)))) (ok_value (value es (Cr l) (map2 radd x (map (fun t => rmul b t) d)))).
Proof. intros n es l x d g a q E Hx Hd G Q P A b. exact (optimal_ok N1 n es l x d g a q b E Hx Hd G Q P A). Qed.
Theorem C42_quadratic_norms : forall m, quadratic m (make_norm2 (K := K) None) /\
  (forall (O : nat -> nat -> K) C, (forall i j, i < m -> j < m -> O i j = O j i) -> (forall y, length y = m -> C y = matvec m m O y) -> quadratic m (make_norm2 (Some C))) /\
  (forall c N, quadratic m N -> quadratic (K := K) m (norm_mul c N)).
Proof. intros m. split; [apply quadratic_norm2|]. split; [intros O C; apply quadratic_norm2_C|intros c N; apply quadratic_mul]. Qed.
(** Backtracking from a positive value of the criterion: the step is the optimal one times tau^j, the steps tried before have increased the criterion; the last one has not, unless it is
    the last one allowed. *)
Theorem C42_backtracking : forall maxiter (tau f0 : K) (f : K -> K) a, lt r0 f0 -> 0 < maxiter -> let r := backtracking maxiter tau f0 f a in
  exists j, 1 <= j <= maxiter /\ r = rmul a (power tau j) /\ (le (f r) f0 \/ j = maxiter) /\ forall k, 1 <= k < j -> lt f0 (f (rmul a (power tau k))).
Proof. intros maxiter tau f0 f a. apply backtracking_ok. Qed.
End Gradients.

(** * Examples *)
Definition q (z : Z) (p : positive) : Qf := Q2Qc (Qmake z p).
Definition numbers (o : output Qf) : list Q := match o with Value v => [this v] | Gradient g => map this g | _ => [] end.
Lemma Q1 : (r1 : Qf) <> r0. Proof. intros E. apply (f_equal this) in E. discriminate. Qed.
(** the matrix 1 2 / 0 1 *)
Definition O_ex (i j : nat) : Qf := match i, j with 0, 0 | 1, 1 => q 1 1 | 0, 1 => q 2 1 | _, _ => q 0 1 end.
Definition op_ex : oper Qf := Oper (Some [2]) (Some [2])
  (fun x => if Nat.eqb (length x) 2 then Ok (matvec 2 2 O_ex x) else Raise ValueError) (fun x => if Nat.eqb (length x) 2 then Ok (matvec 2 2 (transposed O_ex) x) else Raise ValueError).
Lemma op_ex_ok : is_matrix 2 2 O_ex op_ex.
Proof. split; intros x Hx; cbn [op_ex o_call o_T]; rewrite Hx; reflexivity. Qed.
Definition events_ex : list (event Qf) :=
  [NewArray [q 1 1; q 1 1]; NewElement (make_norm2 None) op_ex (Some ([2], [q 1 1; q 3 1])); NewElement (make_huber (Some (q 1 1))) op_ex None; Sum 0 1; Scale (q 2 1) 2; Call 3 0; Diff 3 0; Write 0 [q 0 1; q 1 1]; Call 3 0; Diff 0 0].
Example C42_history_example : Forall (proper 2) events_ex /\
  map numbers (run true start events_ex) = [[]; []; []; []; []; [28]; [12; 20]; []; [18]; [2; 0]]%Q.
Proof.
  split; [|vm_compute; reflexivity]. unfold events_ex. repeat (apply Forall_cons || apply Forall_nil); cbn [proper]; try exact I; try reflexivity; intros x Hx; cbn [op_ex o_call]; rewrite Hx; eexists; reflexivity.
Qed.
Definition es_ex : list (element Qf) := [Element (make_norm2 None) op_ex (Some [q 1 1; q 3 1]); Element (make_huber (Some (q 1 1))) op_ex None].
Example C42_gradient_example : exists g, gradient es_ex (Cr [El 0; El 1]) [q 1 1; q 1 1] = Ok g /\ is_gradient (fun y => ok_value (value es_ex (Cr [El 0; El 1]) y)) [q 1 1; q 1 1] g.
Proof.
  apply (C42_gradient Qf Q1 2); [|reflexivity]. split; [discriminate|]. split; [|split; [|exact I]]; (exists 2, O_ex; split; [apply op_ex_ok|]; split); try exact I; try reflexivity.
  - apply C42_norm2, Q1.
  - apply C42_huber; [exact Q1|vm_compute; reflexivity].
Qed.
Example C42_optimal_example : let es := [Element (make_norm2 (K := Qf) None) op_ex (Some [q 1 1; q 3 1])] in let x := [q 1 1; q 1 1] in let d := [q 1 1; q 0 1] in
  (exists g a s, gradient es (Cr [El 0]) x = Ok g /\ optimal_sum es [El 0] d = Ok s /\ lt r0 s /\ optimal_step es [El 0] d g = Ok (Some a) /\ this a = (-2)%Q) /\ every (linear_element quadratic2 2) es (Cr [El 0]).
Proof.
  intros es x d. split.
  - do 3 eexists. split; [reflexivity|]. split; [reflexivity|]. split; [vm_compute; reflexivity|]. split; [vm_compute; reflexivity|]. vm_compute. reflexivity.
  - split; [discriminate|]. split; [|exact I]. exists 2, O_ex. split; [apply op_ex_ok|]. split; [|reflexivity]. split; [reflexivity|]. apply quadratic_norm2.
Qed.
Example C42_penalised_example : exists es c, quadratic_criterion op_ex ([2], [q 1 1; q 3 1]) [q 1 2] [op_ex] None = Ok (es, c) /\ (v <- value es c [q 1 1; q 1 1] ;; Ok (this v)) = Ok 13%Q.
Proof. do 2 eexists. split; [reflexivity|]. vm_compute. reflexivity. Qed.
Example C42_backtracking_example : this (backtracking (K := Qf) 10 (q 1 2) (q 1 1) (fun a => rmul (rsub (q 1 1) a) (rsub (q 1 1) a)) (q 6 1)) = (3 # 2)%Q.
Proof. vm_compute. reflexivity. Qed.

(** * False claims *)
(** An evaluation that fails spoils the cache: the same evaluation then returns the value at the previous point. *)
Definition bad_op : oper Qf := Oper (Some [2]) (Some [2]) (fun x => if Nat.eqb (length x) 2 then Ok x else Raise ValueError) (fun x => Ok x).
Definition failed (o : output Qf) : bool := match o with Error _ => true | _ => false end.
Theorem C42_stale_refuted : let l := [NewArray [q 3 1; q 4 1]; NewArray [q 9 1; q 9 1; q 9 1]; NewElement (make_norm2 None) bad_op None; Call 0 0; Call 0 1; Call 0 1] in
  map numbers (run false start l) = [[]; []; []; [25]; []; [25]]%Q /\ map failed (run false start l) = [false; false; false; false; true; false] /\
  map failed (ideal_run ideal_start l) = [false; false; false; false; true; true].
Proof. intros l. repeat split; vm_compute; reflexivity. Qed.
(** With a recent NumPy, an evaluation at an array of a wrong size makes all others fail. *)
Theorem C42_stuck_refuted : let l := [NewArray [q 9 1; q 9 1; q 9 1]; NewArray [q 3 1; q 4 1]; NewElement (make_norm2 None) bad_op None; Call 0 0; Call 0 1; Call 0 1] in
  map failed (run true start l) = [false; false; false; true; true; true] /\ map numbers (ideal_run ideal_start l) = [[]; []; []; []; [25]; [25]]%Q.
Proof. intros l. split; vm_compute; reflexivity. Qed.
(** The comparison with the last point broadcasts: after (1, 1, 1), the norm of (1) is said to be 3. *)
Definition any_op : oper Qf := Oper None None (fun x => Ok x) (fun x => Ok x).
Theorem C42_broadcast_refuted : forall strict, let l := [NewArray [q 1 1; q 1 1; q 1 1]; NewArray [q 1 1]; NewElement (make_norm2 None) any_op None; Call 0 0; Call 0 1] in
  map numbers (run strict start l) = [[]; []; []; [3]; [3]]%Q /\ map numbers (ideal_run ideal_start l) = [[]; []; []; [3]; [1]]%Q.
Proof. intros strict l. split; vm_compute; reflexivity. Qed.
(** With an empty array, the operator is never applied. *)
Theorem C42_empty_refuted : forall strict, let l := [NewArray []; NewElement (make_norm2 None) any_op None; Call 0 0] in
  run strict start l = [Nothing; Nothing; Error AttributeError] /\ map numbers (ideal_run ideal_start l) = [[]; []; [0]]%Q.
Proof. intros strict l. split; vm_compute; reflexivity. Qed.
(** The data of an operator whose output has several dimensions are refused, and flattened data are accepted although they cannot be subtracted. *)
Theorem C42_data_refuted : (forall m n p s, data_ok (m :: n :: p) (Some s) = Raise ValueError) /\ data_ok [6] (Some [2; 3]) = Ok true.
Proof. split; reflexivity. Qed.
(** A scaled norm forgets its parameter: its public attribute is a dictionary. *)
Theorem C42_attribute_refuted : forall (K : ofield) (c delta : K), n_attribute (norm_mul c (make_huber (Some delta))) = ADict.
Proof. reflexivity. Qed.
(** sum([criterion, ...]) nests criteria, for which there is no optimal step. *)
Theorem C42_nested_refuted : exists c, add_zero es_ex (Cr [El 0]) = Ok c /\ c = Cr [Cr [El 0]] /\ optimal_step es_ex [Cr [El 0]] [q 1 1; q 0 1] [q 1 1; q 0 1] = Raise AttributeError.
Proof. eexists. split; [reflexivity|]. split; reflexivity. Qed.
(** Backtracking from a negative value, as with a negative hyperparameter: the step is neither tried nor reduced, and may increase the criterion. *)
Theorem C42_negative_refuted : let f := fun a : Qf => rsub (rmul a a) (q 1 1) in let r := backtracking 10 (q 1 2) (q (-1) 1) f (q 8 1) in this r = 8%Q /\ lt (q (-1) 1) (f r).
Proof. split; vm_compute; reflexivity. Qed.
(** The optimal step itself is never tried ('starts with optimal steps'): even where it reaches the minimum, half of it is returned. *)
Theorem C42_full_refuted : let f := fun a : Qf => rmul (rsub (q 1 1) a) (rsub (q 1 1) a) in let r := backtracking 10 (q 1 2) (f (q 0 1)) f (q 1 1) in this r = (1 # 2)%Q /\ this (f (q 1 1)) = 0%Q /\ this (f r) = (1 # 4)%Q.
Proof. repeat split; vm_compute; reflexivity. Qed.
(** The Huber function of integers is truncated. *)
Theorem C42_integers_refuted : huber_int (1 # 2) 1 = 0%Z /\ this (huber1 (q 1 2) (q 1 1)) = (3 # 4)%Q.
Proof. split; vm_compute; reflexivity. Qed.
(** For p = 1, the derivative at 0 does not exist. *)
Theorem C42_norm1_refuted : forall (K : ofield), (r1 : K) <> r0 -> forall g, ~ is_gradient (n_call (make_normp (K := K) 1)) [r0] g.
Proof. intros K N1 g. apply norm1_refuted, N1. Qed.

Print Assumptions C42_history.
Print Assumptions C42_scale.
Print Assumptions C42_add.
Print Assumptions C42_add_zero.
Print Assumptions C42_penalised.
Print Assumptions C42_penalised_succeeds.
Print Assumptions C42_norm2.
Print Assumptions C42_norm2_covariance.
Print Assumptions C42_huber.
Print Assumptions C42_huber_default.
Print Assumptions C42_huber_tangent.
Print Assumptions C42_normp.
Print Assumptions C42_norm_mul.
Print Assumptions C42_gradient.
Print Assumptions C42_optimal.
Print Assumptions C42_quadratic_norms.
Print Assumptions C42_backtracking.
Print Assumptions C42_stale_refuted.
Print Assumptions C42_stuck_refuted.
Print Assumptions C42_broadcast_refuted.
Print Assumptions C42_empty_refuted.
Print Assumptions C42_data_refuted.
Print Assumptions C42_attribute_refuted.
Print Assumptions C42_nested_refuted.
Print Assumptions C42_negative_refuted.
Print Assumptions C42_full_refuted.
Print Assumptions C42_integers_refuted.
Print Assumptions C42_norm1_refuted.
