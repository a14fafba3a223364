(** C33: the preconditioned conjugate gradient. *)
From Coq Require Import QArith Qcanon.
From Verif Require Import Base Algebra Ofield CgModel CgSpec CgProofs.
Local Open Scope nat_scope.

(** The state after k iterations, whether or not the last one has raised StopIteration. *)
Definition visits {K : ofield} n A M b (tol : K) x0 junk k s : Prop :=
  iterations n A M b tol x0 junk k = Fine s \/ (iterations n A M b tol x0 junk k = Stops s /\ s_niter s = k).

Section Theorems.
Context (K : ofield) (n : nat) (A M : nat -> nat -> K) (b x0 junk : nat -> K) (tol : K).
Add Ring Kring : (rth K).
Notation visits := (visits n A M b tol x0 junk).
Notation iterations := (iterations n A M b tol x0 junk).

Lemma visits_consistent k s : inner n b b <> r0 -> visits k s -> consistent n A b s /\ s_niter s = k.
Proof.
  intros B [E|[E F]].
  - revert s E. induction k as [|k IH]; intros s E.
    + pose proof (initialize_consistent n A M b x0 tol junk B _ E) as (C & _ & N). auto.
    + cbn [CgModel.iterations] in E. destruct (iterations k) as [t|t|] eqn:I; try discriminate. destruct (IH t eq_refl) as [C N].
      pose proof (iteration_consistent n A M b tol t C) as H. rewrite E in H. destruct H as (C' & _ & N'). rewrite N in N'. auto.
  - split; [|exact F]. revert s E F. induction k as [|k IH]; intros s E F.
    + pose proof (initialize_consistent n A M b x0 tol junk B _ E) as (C & _). exact C.
    + cbn [CgModel.iterations] in E. destruct (iterations k) as [t|t|] eqn:I; try discriminate.
      * destruct (fine_ok n A M b x0 tol junk B k t I) as [-> _].
        assert (consistent n A b (at_step n A M b x0 k)) as C by (split; [intros; apply residual_ok|apply error2_ok]).
        pose proof (iteration_consistent n A M b tol _ C) as H. rewrite E in H. apply H.
      * injection E as ->. exfalso. clear IH. assert (forall j, iterations j = Stops s -> s_niter s <= j) as L; [|specialize (L k I); lia].
        clear - B. induction j as [|j IH]; intros E.
        { cbn [CgModel.iterations] in E. unfold initialize in E. destruct (eqb _ _); [injection E as <-; reflexivity|]. cbn zeta in E. destruct (below tol _); [|discriminate]. injection E as <-. reflexivity. }
        cbn [CgModel.iterations] in E. destruct (iterations j) as [t|t|] eqn:I; try discriminate; [|specialize (IH E); lia].
        destruct (fine_ok n A M b x0 tol junk B j t I) as [-> _].
        unfold iteration in E. cbn zeta in E. destruct (eqb _ _) in E; [discriminate|]. destruct (below tol _); [|destruct (eqb _ _) in E; discriminate].
        injection E as <-. cbn [s_niter]. rewrite niter_ok. lia.
Qed.
Lemma visits_at k s : spd n A -> spd n M -> inner n b b <> r0 -> visits k s ->
  s_x s = s_x (at_step n A M b x0 k) /\ s_r s = s_r (at_step n A M b x0 k) /\ forall i, i < k -> s_delta (at_step n A M b x0 i) <> r0.
Proof.
  intros SA SM B [E|[E F]].
  - destruct (fine_ok n A M b x0 tol junk B k s E) as [-> D]. auto.
  - destruct (stops_ok n A M b x0 tol junk B k s SA SM E) as (j & _ & _ & X & R & N & _ & _ & D). rewrite F in N. subst j. auto.
Qed.

(** In exact arithmetic the residual vector that the algorithm updates is the residual of its solution, for any operator and any
    preconditioner, and the square of the error is its squared norm divided by the one of the right hand side. *)
Theorem C33_residual : forall k s, inner n b b <> r0 -> visits k s ->
  (forall i, s_r s i = residual n A b (s_x s) i) /\ s_error2 s = div (inner n (residual n A b (s_x s)) (residual n A b (s_x s))) (inner n b b) /\ s_niter s = k.
Proof.
  intros k s B V. destruct (visits_consistent k s B V) as [[C1 C2] N]. split; [exact C1|]. split; [|exact N]. rewrite C2. f_equal.
  apply sum_ext. intros i _. rewrite C1. reflexivity.
Qed.

(** The residuals are orthogonal for the preconditioner and to the previous directions, which are conjugate. *)
Theorem C33_orthogonal : forall j k sj sk, spd n A -> spd n M -> inner n b b <> r0 -> j < k -> visits j sj -> visits k sk ->
  inner n (s_r sk) (times n M (s_r sj)) = r0 /\ inner n (s_r sk) (s_d sj) = r0 /\
  (iterations k = Fine sk -> inner n (s_d sk) (times n A (s_d sj)) = r0).
Proof.
  intros j k sj sk SA SM B L Vj Vk. destruct (visits_at k sk SA SM B Vk) as (_ & R & D).
  assert (iterations j = Fine sj) as Fj.
  { destruct Vj as [E|[E _]]; [exact E|]. exfalso. assert (iterations k = Stops sj) as S. { clear - E L. induction L as [|k L IH]; cbn [CgModel.iterations]; [rewrite E|rewrite IH]; reflexivity. }
    destruct Vk as [V|[V N]]; [congruence|]. rewrite S in V. injection V as ->.
    destruct (stops_ok n A M b x0 tol junk B j sk SA SM E) as (i & Hi & _ & _ & _ & Ni & _). lia. }
  destruct (fine_ok n A M b x0 tol junk B j sj Fj) as [-> _]. destruct (orthogonal_ok n A M b x0 SA SM k D) as (P1 & _ & P3 & P4).
  rewrite R. split; [apply P4; lia|]. split; [apply P1; lia|]. intros F. destruct (fine_ok n A M b x0 tol junk B k sk F) as [-> _]. apply P3. lia.
Qed.

(** Each iterate is optimal: moving it along the directions used up to now increases the energy by v . A v. *)
Theorem C33_optimal : forall k s (sj : nat -> state K) c, spd n A -> spd n M -> inner n b b <> r0 -> visits k s -> (forall j, j < k -> iterations j = Fine (sj j)) ->
  let v := combination k c (fun j => s_d (sj j)) in
  energy n A b (fun i => radd (s_x s i) (v i)) = radd (energy n A b (s_x s)) (inner n v (times n A v)).
Proof.
  intros k s sj c SA SM B V F. cbn zeta. destruct (visits_at k s SA SM B V) as (-> & _ & D).
  apply (optimal_ext n A b (s_x (at_step n A M b x0 k)) (combination k c (fun j => s_d (at_step n A M b x0 j)))); [|apply optimal; assumption].
  intros i. apply sum_ext. intros j Hj. destruct (fine_ok n A M b x0 tol junk B j (sj j) (F j Hj)) as [-> _]. reflexivity.
Qed.

(** In exact arithmetic, after n iterations there is no residual. *)
Theorem C33_exact : forall s, spd n A -> spd n M -> inner n b b <> r0 -> visits n s -> null n (residual n A b (s_x s)).
Proof.
  intros s SA SM B V. destruct (visits_at n s SA SM B V) as (X & R & D). rewrite X.
  assert (null n (s_r (at_step n A M b x0 n))) as N.
  { destruct (null_dec n (s_r (at_step n A M b x0 n))) as [Y|N]; [exact Y|]. exfalso. apply (too_many n A M b x0 SA SM).
    - intros E. apply B. apply sum_zero. intros i _. transitivity (rmul (r1 : K) (rmul (b i) (b i))); [|rewrite E]; ring.
    - intros j Hj. destruct (Nat.eq_dec j n) as [->|]; [|apply D; lia]. rewrite delta_ok. apply definite; assumption. }
  intros i Hi. rewrite <- (N i Hi). symmetry. apply residual_ok.
Qed.

(** A positive tolerance is reached after at most n iterations. *)
Theorem C33_terminates : forall maxiter, spd n A -> spd n M -> lt r0 tol -> n <= maxiter ->
  exists s, pcg n A M b tol x0 junk maxiter = Success s /\ s_niter s <= n.
Proof.
  intros maxiter SA SM T L. unfold pcg. destruct (eq_dec (dot n b b) r0) as [Z|B].
  - unfold initialize. rewrite Z. pose proof (eqb_spec (r0 : K) r0) as E. destruct (eqb _ _); [|contradiction]. eexists. split; [reflexivity|]. cbn. lia.
  - pose proof (initialize_ends n A M b x0 tol junk B SM T) as I. destruct (initialize n A M b tol x0 junk) as [s|s|] eqn:E.
    + pose proof (initialize_ok n A M b x0 tol junk B s E) as ->. apply (loop_ends n A M b x0 tol SA SM T maxiter 0); [|lia]. intros j Hj. replace j with 0 by lia. exact I.
    + eexists. split; [reflexivity|]. unfold initialize in E. rewrite (eqb_false _ _ B) in E. cbn zeta in E. destruct (below tol _); [|discriminate]. injection E as <-. cbn. lia.
    + unfold initialize in E. destruct (eqb _ _); [discriminate|]. cbn zeta in E. destruct (below tol _); discriminate.
Qed.

(** For any operator and preconditioner, a success means that the error is less than the tolerance and is correctly reported, or that the
    right hand side is zero and so is the solution. *)
Theorem C33_success : forall maxiter s, pcg n A M b tol x0 junk maxiter = Success s ->
  (null n b /\ (forall i, s_x s i = r0) /\ s_error2 s = r0 /\ s_niter s = 0) \/
  (~ null n b /\ lt r0 tol /\ lt (s_error2 s) (rmul tol tol) /\ s_niter s <= maxiter /\
   rmul (s_error2 s) (inner n b b) = inner n (residual n A b (s_x s)) (residual n A b (s_x s))).
Proof.
  intros maxiter s E. unfold pcg in E. destruct (eq_dec (dot n b b) r0) as [Z|B].
  - left. unfold initialize in E. rewrite Z in E. pose proof (eqb_spec (r0 : K) r0) as F. destruct (eqb _ _); [|contradiction].
    injection E as <-. split; [apply dot_self_zero, Z|]. repeat split.
  - right. split; [intros N; apply B, dot_null, N|].
    assert (consistent n A b s /\ below tol (s_error2 s) = true /\ s_niter s <= maxiter) as (C & T & L).
    { destruct (initialize n A M b tol x0 junk) as [t|t|] eqn:I; [| |discriminate].
      - pose proof (initialize_consistent n A M b x0 tol junk B _ I) as (C & T & N). pose proof (loop_ok n A M b tol maxiter t C T) as H. rewrite E in H. destruct H as (? & ? & ?). repeat split; auto; try apply H. lia.
      - pose proof (initialize_consistent n A M b x0 tol junk B _ I) as (C & T). injection E as ->. repeat split; try apply C; auto.
        unfold initialize in I. rewrite (eqb_false _ _ B) in I. cbn zeta in I. destruct (below tol _); [|discriminate]. injection I as <-. cbn. lia. }
    unfold below in T. apply andb_prop in T. destruct T as [T1 T2]. split; [exact T1|]. split; [exact T2|]. split; [exact L|].
    destruct C as [C1 C2]. rewrite C2. rewrite div_mul by exact B. apply sum_ext. intros i _. rewrite C1. reflexivity.
Qed.

(** A failure is reported after exactly maxiter iterations, when the tolerance is not reached. *)
Theorem C33_failure : forall maxiter s, pcg n A M b tol x0 junk maxiter = Failure s ->
  ~ null n b /\ s_niter s = maxiter /\ (lt r0 tol -> le (rmul tol tol) (s_error2 s)) /\
  rmul (s_error2 s) (inner n b b) = inner n (residual n A b (s_x s)) (residual n A b (s_x s)).
Proof.
  intros maxiter s E. unfold pcg in E. destruct (eq_dec (dot n b b) r0) as [Z|B].
  { unfold initialize in E. rewrite Z in E. pose proof (eqb_spec (r0 : K) r0) as F. destruct (eqb _ _); [discriminate|contradiction]. }
  split; [intros N; apply B, dot_null, N|]. destruct (initialize n A M b tol x0 junk) as [t|t|] eqn:I; try discriminate.
  pose proof (initialize_consistent n A M b x0 tol junk B _ I) as (C & T & N). pose proof (loop_ok n A M b tol maxiter t C T) as H. rewrite E in H. destruct H as ([C1 C2] & T' & N').
  split; [lia|]. split; [|rewrite C2, div_mul by exact B; apply sum_ext; intros i _; rewrite C1; reflexivity].
  intros P. unfold below in T'. unfold lt in P. rewrite P in T'. exact T'.
Qed.
End Theorems.

(** With a communicator, the local products add up to the product of the distributed vectors. *)
Theorem C33_mpi : forall (K : cring) (x y : list (list K)), length x = length y -> (forall i, length (nth i x []) = length (nth i y [])) ->
  mpi_dot x y = ldot (concat x) (concat y).
Proof.
  induction x as [|p x IH]; intros [|q y] L H; try discriminate; [reflexivity|]. cbn [concat]. rewrite ldot_app by exact (H 0).
  rewrite <- IH; [reflexivity|cbn in L; lia|intros i; exact (H (S i))].
Qed.

(** ** Examples: A = (2 1; 1 2), M = diag(1/2), b = (3, 3/2) *)
Add Ring Qfring : (rth Qf).
Definition q (z : Z) (p : positive) : Qf := Q2Qc (z # p).
Definition vec2 (a b : Qf) : nat -> Qf := fun i => match i with 0 => a | 1 => b | _ => r0 end.
Definition mat2 (a b c d : Qf) : nat -> nat -> Qf := fun i => match i with 0 => vec2 a b | 1 => vec2 c d | _ => fun _ => r0 end.
Definition A2 := mat2 (q 2 1) (q 1 1) (q 1 1) (q 2 1).
Definition M2 := mat2 (q 1 2) (q 0 1) (q 0 1) (q 1 1).
Definition b2 := vec2 (q 3 1) (q 3 2).
Definition zeros : nat -> Qf := fun _ => r0.
Lemma spd2 (a c d : Qf) : lt r0 a -> lt r0 (rsub (rmul a d) (rmul c c)) -> spd 2 (mat2 a c c d).
Proof.
  intros Ha Hd. split; [intros [|[|i]] [|[|j]] Hi Hj; try lia; reflexivity|]. intros x N.
  assert (inner 2 x (times 2 (mat2 a c c d) x) = rmul (inv a) (radd (rmul (radd (rmul a (x 0)) (rmul c (x 1))) (radd (rmul a (x 0)) (rmul c (x 1)))) (rmul (rsub (rmul a d) (rmul c c)) (rmul (x 1) (x 1))))) as E.
  { unfold inner, times. cbn [sum mat2 vec2]. pose proof (inv_ok Qf a (fun F => lt_neq _ _ Ha (eq_sym F))) as I.
    transitivity (rmul (rmul a (inv a)) (radd (rmul (x 0) (radd (rmul a (x 0)) (rmul c (x 1)))) (rmul (x 1) (radd (rmul c (x 0)) (rmul d (x 1)))))); [rewrite I; ring|ring]. }
  rewrite E. apply (lt_mul Qf); [apply inv_pos, Ha|]. destruct (eq_dec (x 1) r0) as [Z|Z].
  - assert (x 0 <> r0) as X. { intros F. apply N. intros [|[|i]] Hi; try lia; assumption. }
    rewrite Z. replace (radd _ _) with (rmul (rmul a (x 0)) (rmul a (x 0))) by ring. apply square_pos, mul_neq; [intros F; exact (lt_neq _ _ Ha (eq_sym F))|exact X].
  - match goal with |- ltb _ (radd ?u ?v) = true => replace (radd u v) with (radd v u) by ring end.
    apply lt_add_pos; [|apply square_nonneg]. apply (lt_mul Qf); [exact Hd|apply square_pos, Z].
Qed.
Example A2_spd : spd 2 A2. Proof. apply spd2; reflexivity. Qed.
Example M2_spd : spd 2 M2. Proof. apply spd2; reflexivity. Qed.
Definition solution (a : answer Qf) : option (list Q * Q * nat) :=
  match a with Success s => Some ([this (s_x s 0); this (s_x s 1)], this (s_error2 s), s_niter s) | _ => None end.
Example pcg_run : solution (pcg 2 A2 M2 b2 (q 1 1000) zeros zeros 5) = Some ([3 # 2; 0 # 1]%Q, 0%Q, 2). Proof. vm_compute. reflexivity. Qed.
Example pcg_maxiter : match pcg 2 A2 M2 b2 (q 1 1000) zeros zeros 1 with Failure s => s_niter s = 1 | _ => False end. Proof. vm_compute. reflexivity. Qed.
Example visits_run : match iterations 2 A2 M2 b2 (q 1 1000) zeros zeros 1, iterations 2 A2 M2 b2 (q 1 1000) zeros zeros 2 with
  | Fine _, Stops s => s_niter s = 2 | _, _ => False end.
Proof. vm_compute. reflexivity. Qed.
Example mpi_run : mpi_dot (K := Zring) [[1; 2]; []; [3]]%Z [[1; 1]; []; [2]]%Z = 9%Z. Proof. reflexivity. Qed.

(** With the tolerance zero the exact solution is reached and the algorithm goes on by dividing zero by zero: the result is NaN.  The documentation
    does not exclude this tolerance. *)
Theorem C33_zero_tolerance_refuted : ~ forall (K : ofield) n (A M : nat -> nat -> K) b tol x0 junk maxiter, spd n A -> spd n M -> le r0 tol -> n <= maxiter ->
  pcg n A M b tol x0 junk maxiter <> Garbage.
Proof.
  intros H. apply (H Qf 2 A2 M2 b2 (q 0 1) zeros zeros 3 A2_spd M2_spd); [reflexivity|lia|]. vm_compute. reflexivity.
Qed.

(** The method restart lets escape the exception that ends the run when there is nothing to iterate, which the method run catches. *)
Theorem C33_restart_refuted : ~ forall (K : ofield) n (A M : nat -> nat -> K) b tol x0 junk maxiter s, spd n A -> spd n M ->
  pcg n A M b tol x0 junk maxiter = Success s -> exists s', restart n A M b tol x0 junk maxiter = Ok s'.
Proof.
  intros H. destruct (H Qf 2 A2 M2 zeros (q 1 1000) zeros zeros 5 (St zeros zeros zeros r0 r0 0) A2_spd M2_spd) as [s E]; [reflexivity|].
  assert (restart 2 A2 M2 zeros (q 1 1000) zeros zeros 5 = Raise StopIteration) as F by (vm_compute; reflexivity). rewrite F in E. discriminate.
Qed.

Print Assumptions C33_residual. Print Assumptions C33_orthogonal. Print Assumptions C33_optimal. Print Assumptions C33_exact. Print Assumptions C33_terminates.
Print Assumptions C33_success. Print Assumptions C33_failure. Print Assumptions C33_mpi. Print Assumptions C33_zero_tolerance_refuted. Print Assumptions C33_restart_refuted.
