From Verif Require Import Base Algebra Ofield CgModel CgSpec.
Local Open Scope nat_scope.

(** ** Vectors *)
Section Linear.
Context {K : ofield}.
Add Ring KringC : (rth K).
Local Open Scope cr_scope.
Definition skip (p i : nat) : nat := if (i <? p)%nat then i else S i.
Lemma sum_skip (f : nat -> K) m p : (p <= m)%nat -> sum (S m) f = f p + sum m (fun i => f (skip p i)).
Proof.
  revert p. induction m as [|m IH]; intros p Hp.
  - replace p with 0%nat by lia. cbn [sum]. ring.
  - destruct (Nat.eq_dec p (S m)) as [->|N].
    + cbn [sum]. rewrite (sum_ext m (fun i => f (skip (S m) i)) f).
      * unfold skip. destruct (Nat.ltb_spec m (S m)); [ring|lia].
      * intros i Hi. unfold skip. destruct (Nat.ltb_spec i (S m)); [reflexivity|lia].
    + change (sum (S (S m)) f) with (sum (S m) f + f (S m)). rewrite (IH p) by lia. cbn [sum]. unfold skip at 3. destruct (Nat.ltb_spec m p); [lia|]. ring.
Qed.
Lemma skip_lt p i m : (p <= m)%nat -> (i < m)%nat -> (skip p i < S m)%nat.
Proof. unfold skip. intros. destruct (Nat.ltb_spec i p); lia. Qed.
Definition unskip (p i : nat) : nat := if (i <? p)%nat then i else (i - 1)%nat.
Lemma unskip_skip p i : unskip p (skip p i) = i.
Proof. unfold unskip, skip. destruct (Nat.ltb_spec i p). - destruct (Nat.ltb_spec i p); lia. - destruct (Nat.ltb_spec (S i) p); lia. Qed.
Lemma skip_neq p i : skip p i <> p. Proof. unfold skip. destruct (Nat.ltb_spec i p); lia. Qed.
(** More than n vectors of length n are linearly dependent. *)
Lemma dependent : (1 : K) <> 0 -> forall n m (v : nat -> nat -> K), (n < m)%nat ->
  exists c, (exists i, (i < m)%nat /\ c i <> 0) /\ forall j, (j < n)%nat -> sum m (fun i => c i * v i j) = 0.
Proof.
  intros O n. induction n as [|n IH]; intros m v H.
  - exists (fun _ => 1). split; [exists 0%nat; auto|]. intros; lia.
  - assert ((exists p, (p < m)%nat /\ v p n <> 0) \/ forall p, (p < m)%nat -> v p n = 0) as [(p & Hp & P)|Z].
    { clear -K. induction m as [|m [(p & Hp & P)|Z]]; [right; intros; lia|left; exists p; split; [lia|exact P]|].
      destruct (eq_dec (v m n) 0) as [E|N]; [right|left; exists m; split; [lia|exact N]]. intros p Hp. destruct (Nat.eq_dec p m) as [->|]; [exact E|apply Z; lia]. }
    + destruct m as [|m]; [lia|]. destruct (IH m (fun i j => v (skip p i) j - div (v (skip p i) n) (v p n) * v p j)) as (c & (i & Hi & C) & E); [lia|].
      exists (fun i => if Nat.eqb i p then - sum m (fun i => c i * div (v (skip p i) n) (v p n)) else c (unskip p i)). split.
      * exists (skip p i). split; [apply skip_lt; lia|]. cbn beta. destruct (Nat.eqb_spec (skip p i) p) as [F|]; [exfalso; exact (skip_neq p i F)|]. rewrite (unskip_skip p i). exact C.
      * intros j Hj. rewrite (sum_skip _ m p) by lia. rewrite Nat.eqb_refl. set (t := - sum m _) in *.
        rewrite (sum_ext m _ (fun i => c i * v (skip p i) j)).
        2:{ intros k Hk. cbn beta. destruct (Nat.eqb_spec (skip p k) p) as [F|]; [exfalso; exact (skip_neq p k F)|]. rewrite (unskip_skip p k). reflexivity. }
        unfold t. clear t.
        destruct (Nat.eq_dec j n) as [->|N].
        -- rewrite (sum_ext m (fun i => c i * v (skip p i) n) (fun i => c i * div (v (skip p i) n) (v p n) * v p n)).
           { rewrite sum_mul_r. ring. }
           intros k Hk. replace (c k * div (v (skip p k) n) (v p n) * v p n) with (c k * (div (v (skip p k) n) (v p n) * v p n)) by ring. rewrite div_mul by exact P. reflexivity.
        -- specialize (E j ltac:(lia)). rewrite <- E.
           rewrite (sum_ext m (fun i => c i * (v (skip p i) j - div (v (skip p i) n) (v p n) * v p j)) (fun i => c i * v (skip p i) j - c i * div (v (skip p i) n) (v p n) * v p j)) by (intros; ring).
           rewrite sum_sub, sum_mul_r. ring.
    + destruct (IH m v ltac:(lia)) as (c & C & E). exists c. split; [exact C|]. intros j Hj. destruct (Nat.eq_dec j n) as [->|]; [|apply E; lia].
      apply sum_zero. intros i Hi. rewrite Z by exact Hi. ring.
Qed.
End Linear.

Section Cg.
Context {K : ofield} (n : nat).
Add Ring KringC2 : (rth K).
Local Open Scope cr_scope.
Notation vec := (nat -> K).
Notation dot := (@dot K n).
Notation apply := (@apply K n).
Implicit Types x y z : vec.
Lemma dot_comm x y : dot x y = dot y x. Proof. apply sum_ext. intros. ring. Qed.
Lemma dot_add_l x y z : dot (fun i => x i + y i) z = dot x z + dot y z.
Proof. unfold CgModel.dot. rewrite <- sum_add. apply sum_ext. intros. ring. Qed.
Lemma dot_sub_l x y z : dot (fun i => x i - y i) z = dot x z - dot y z.
Proof. unfold CgModel.dot. rewrite <- sum_sub. apply sum_ext. intros. ring. Qed.
Lemma dot_scal_l c x z : dot (fun i => c * x i) z = c * dot x z.
Proof. unfold CgModel.dot. rewrite <- sum_mul_l. apply sum_ext. intros. ring. Qed.
Lemma dot_ext x y x' y' : (forall i, (i < n)%nat -> x i = x' i) -> (forall i, (i < n)%nat -> y i = y' i) -> dot x y = dot x' y'.
Proof. intros E F. apply sum_ext. intros i Hi. rewrite E, F by exact Hi. reflexivity. Qed.
Lemma dot_sum_l k c (v : nat -> vec) z : dot (fun i => sum k (fun j => c j * v j i)) z = sum k (fun j => c j * dot (v j) z).
Proof.
  induction k as [|k IH]; cbn [sum].
  - unfold CgModel.dot. apply sum_zero. intros. ring.
  - rewrite dot_add_l, IH, dot_scal_l. reflexivity.
Qed.
Lemma dot_null x y : (forall i, (i < n)%nat -> x i = 0) -> dot x y = 0.
Proof. intros E. apply sum_zero. intros i Hi. rewrite E by exact Hi. ring. Qed.
Lemma dot_self_pos x : le 0 (dot x x). Proof. apply sum_nonneg. intros. apply square_nonneg. Qed.
Lemma dot_self_zero x : dot x x = 0 -> null n x.
Proof.
  intros E i Hi. pose proof (sum_nonneg_zero n (fun i => x i * x i) (fun i _ => square_nonneg (x i)) E i Hi) as F. cbn in F. apply mul_zero in F. tauto.
Qed.
Lemma apply_add (B : nat -> nat -> K) x y i : apply B (fun j => x j + y j) i = apply B x i + apply B y i.
Proof. unfold CgModel.apply. rewrite <- sum_add. apply sum_ext. intros. ring. Qed.
Lemma apply_scal (B : nat -> nat -> K) c x i : apply B (fun j => c * x j) i = c * apply B x i.
Proof. unfold CgModel.apply. rewrite <- sum_mul_l. apply sum_ext. intros. ring. Qed.
Lemma apply_null (B : nat -> nat -> K) x i : (forall j, (j < n)%nat -> x j = 0) -> apply B x i = 0.
Proof. intros E. apply sum_zero. intros j Hj. rewrite E by exact Hj. ring. Qed.
Lemma apply_sym (B : nat -> nat -> K) x y : (forall i j, (i < n)%nat -> (j < n)%nat -> B i j = B j i) -> dot x (apply B y) = dot y (apply B x).
Proof.
  intros S. unfold CgModel.dot, CgModel.apply. 
  rewrite (sum_ext n (fun i => x i * sum n (fun j => B i j * y j)) (fun i => sum n (fun j => x i * (B i j * y j)))) by (intros; symmetry; apply sum_mul_l).
  rewrite (sum_ext n (fun i => y i * sum n (fun j => B i j * x j)) (fun i => sum n (fun j => y i * (B i j * x j)))) by (intros; symmetry; apply sum_mul_l).
  rewrite sum_swap. apply sum_ext. intros i Hi. apply sum_ext. intros j Hj. rewrite (S j i) by assumption. ring.
Qed.

Context (A M : nat -> nat -> K) (b : vec).

(** One iteration without the tests. *)
Definition step (s : state K) : state K :=
  let q := apply A (s_d s) in
  let alpha := div (s_delta s) (dot (s_d s) q) in
  let r := fun i => s_r s i - alpha * q i in
  let delta := dot r (apply M r) in
  let beta := div delta (s_delta s) in
  St (fun i => s_x s i + alpha * s_d s i) r (fun i => s_d s i * beta + apply M r i) delta (div (dot r r) (dot b b)) (S (s_niter s)).
Definition start (x0 : vec) : state K :=
  let r := fun i => b i - apply A x0 i in St x0 r (apply M r) (dot r (apply M r)) (div (dot r r) (dot b b)) 0.
Definition at_step (x0 : vec) (k : nat) : state K := Nat.iter k step (start x0).
Context (x0 : vec).
Notation x k := (s_x (at_step x0 k)).
Notation r k := (s_r (at_step x0 k)).
Notation d k := (s_d (at_step x0 k)).
Notation delta k := (s_delta (at_step x0 k)).
Notation alpha k := (div (delta k) (dot (d k) (apply A (d k)))).
Notation beta k := (div (delta (S k)) (delta k)).

Lemma residual_ok k i : r k i = b i - apply A (x k) i.
Proof.
  induction k as [|k IH]; [reflexivity|]. cbn [at_step Nat.iter nat_rect step s_r s_x].
  change (nat_rect (fun _ : nat => state K) (start x0) (fun _ : nat => step) k) with (at_step x0 k).
  rewrite apply_add, apply_scal, IH. ring.
Qed.
Lemma r_S k i : r (S k) i = r k i - alpha k * apply A (d k) i. Proof. reflexivity. Qed.
Lemma x_S k i : x (S k) i = x k i + alpha k * d k i. Proof. reflexivity. Qed.
Lemma d_S k i : d (S k) i = d k i * beta k + apply M (r (S k)) i. Proof. reflexivity. Qed.
Lemma delta_ok k : delta k = dot (r k) (apply M (r k)). Proof. destruct k; reflexivity. Qed.
Lemma error2_ok k : s_error2 (at_step x0 k) = div (dot (r k) (r k)) (dot b b). Proof. destruct k; reflexivity. Qed.
Lemma niter_ok k : s_niter (at_step x0 k) = k. Proof. induction k; [reflexivity|]. cbn. f_equal. exact IHk. Qed.

Section Spd.
Context (SA : spd n A) (SM : spd n M).
Lemma neg_lemma (a c : K) : a = 0 -> a - c * 0 = 0. Proof. intros ->. ring. Qed.
Lemma definite B v : spd n B -> ~ null n v -> dot v (apply B v) <> 0.
Proof. intros [_ P] N E. specialize (P v N). change (inner n v (times n B v)) with (dot v (apply B v)) in P. rewrite E in P. exact (lt_neq _ _ P eq_refl). Qed.
Lemma not_null u v : dot u v <> 0 -> ~ null n v.
Proof. intros N E. apply N. rewrite dot_comm. apply dot_null, E. Qed.

(** expansions *)
Lemma r_S_dot k v : dot (r (S k)) v = dot (r k) v - alpha k * dot (apply A (d k)) v.
Proof. rewrite (dot_ext (r (S k)) v (fun i => r k i - alpha k * apply A (d k) i) v) by (intros; auto; apply r_S). rewrite (dot_sub_l (r k) (fun i => alpha k * apply A (d k) i)), dot_scal_l. reflexivity. Qed.
Lemma d_S_dot k v : dot (d (S k)) v = beta k * dot (d k) v + dot (apply M (r (S k))) v.
Proof.
  rewrite (dot_ext (d (S k)) v (fun i => beta k * d k i + apply M (r (S k)) i) v) by (intros; auto; rewrite d_S; ring).
  rewrite (dot_add_l (fun i => beta k * d k i)), dot_scal_l. reflexivity.
Qed.
Definition orthogonal k : Prop :=
  (forall i j, (j < i <= k)%nat -> dot (r i) (d j) = 0) /\ (forall i, (i <= k)%nat -> dot (r i) (d i) = delta i) /\
  (forall i j, (j < i <= k)%nat -> dot (d i) (apply A (d j)) = 0) /\ (forall i j, (j < i <= k)%nat -> dot (r i) (apply M (r j)) = 0).
Lemma orthogonal_ok k : (forall j, (j < k)%nat -> delta j <> 0) -> orthogonal k.
Proof.
  induction k as [|k IH]; intros D.
  - split; [|split; [|split]]; intros; try lia. replace i with 0%nat by lia. reflexivity.
  - destruct IH as (P1 & P2 & P3 & P4); [intros; apply D; lia|].
    assert (forall j, (j <= k)%nat -> dot (d j) (apply A (d j)) <> 0) as DA.
    { intros j Hj. apply definite; [exact SA|]. apply (not_null (r j)). rewrite P2 by lia. apply D. lia. }
    assert (forall j, (j <= k)%nat -> alpha j <> 0) as AL by (intros j Hj; apply div_neq; [apply D; lia|apply DA, Hj]).
    assert (forall j, (j <= k)%nat -> dot (r (S k)) (d j) = 0) as Q1.
    { intros j Hj. rewrite r_S_dot. destruct (Nat.eq_dec j k) as [->|N].
      - rewrite P2, (dot_comm (apply A (d k))), div_mul by (try lia; apply DA; lia). ring.
      - rewrite P1 by lia. rewrite (dot_comm (apply A (d k)) (d j)), (apply_sym A (d j) (d k)) by apply SA. rewrite (P3 k j) by lia. ring. }
    assert (forall j, (j <= k)%nat -> dot (r (S k)) (apply M (r j)) = 0) as Q4.
    { intros j Hj. destruct j as [|j]; [apply (Q1 0%nat Hj)|]. pose proof (Q1 (S j) Hj) as E. rewrite dot_comm, d_S_dot in E.
      rewrite (dot_comm (d j)), (Q1 j) in E by lia. rewrite (dot_comm (r (S k))). rewrite <- E. ring. }
    assert (forall j, (j <= k)%nat -> dot (d (S k)) (apply A (d j)) = 0) as Q3.
    { intros j Hj. apply (mul_cancel (alpha j)); [apply AL, Hj|]. rewrite rmul_0_r, d_S_dot.
      assert (alpha j * dot (apply M (r (S k))) (apply A (d j)) = dot (r j) (apply M (r (S k))) - dot (r (S j)) (apply M (r (S k)))) as E.
      { rewrite (r_S_dot j), (dot_comm (apply M (r (S k)))). ring. }
      replace (alpha j * (beta k * dot (d k) (apply A (d j)) + dot (apply M (r (S k))) (apply A (d j))))
        with (beta k * (alpha j * dot (d k) (apply A (d j))) + alpha j * dot (apply M (r (S k))) (apply A (d j))) by ring.
      rewrite E, (apply_sym M (r j)) by apply SM. rewrite (Q4 j) by exact Hj.
      destruct (Nat.eq_dec j k) as [->|N].
      - rewrite (div_mul (delta k)) by (apply DA; lia). rewrite <- (delta_ok (S k)). rewrite div_mul by (apply D; lia). ring.
      - rewrite (P3 k j) by lia. rewrite (apply_sym M (r (S j))) by apply SM. rewrite (Q4 (S j)) by lia. ring. }
    split; [|split; [|split]].
    + intros i j Hij. destruct (Nat.eq_dec i (S k)) as [->|]; [apply Q1; lia|apply P1; lia].
    + intros i Hi. destruct (Nat.eq_dec i (S k)) as [->|]; [|apply P2; lia]. rewrite dot_comm, d_S_dot, (dot_comm (d k)), Q1 by lia. rewrite delta_ok, (dot_comm (r (S k))). ring.
    + intros i j Hij. destruct (Nat.eq_dec i (S k)) as [->|]; [apply Q3; lia|apply P3; lia].
    + intros i j Hij. destruct (Nat.eq_dec i (S k)) as [->|]; [apply Q4; lia|apply P4; lia].
Qed.

Lemma null_dec (v : vec) : {null n v} + {~ null n v}.
Proof.
  unfold null. assert (forall m, {forall i, (i < m)%nat -> v i = 0} + {~ forall i, (i < m)%nat -> v i = 0}) as D; [|apply D].
  induction m as [|m [Y|N]]; [left; intros; lia| |right; intros H; apply N; intros; apply H; lia].
  destruct (eq_dec (v m) 0) as [E|E]; [left|right; intros H; apply E, H; lia]. intros i Hi. destruct (Nat.eq_dec i m) as [->|]; [exact E|apply Y; lia].
Qed.
Lemma delta_null k : delta k = 0 -> null n (r k).
Proof. intros E. destruct (null_dec (r k)) as [Y|N]; [exact Y|]. exfalso. rewrite delta_ok in E. exact (definite M (r k) SM N E). Qed.
Lemma null_delta k : null n (r k) -> delta k = 0.
Proof. intros N. rewrite delta_ok. apply dot_null, N. Qed.
Lemma null_direction k : delta k = 0 -> null n (d k).
Proof.
  intros E i Hi. pose proof (delta_null k E) as N. destruct k as [|k]; [apply apply_null, N|].
  rewrite d_S, E, div_0, (apply_null M (r (S k))) by exact N. ring.
Qed.
Lemma too_many : (1 : K) <> 0 -> ~ forall j, (j <= n)%nat -> delta j <> 0.
Proof.
  intros O D. destruct (orthogonal_ok (S n)) as (_ & P2 & P3 & _); [intros; apply D; lia|].
  destruct (dependent O n (S n) (fun j => d j)) as (c & (i & Hi & C) & E); [lia|].
  assert (dot (fun l => sum (S n) (fun j => c j * d j l)) (apply A (d i)) = 0) as F by (apply dot_null; exact E).
  rewrite (dot_sum_l (S n) c (fun j => d j)) in F. rewrite (sum_single (S n) _ i Hi) in F.
  - apply mul_zero in F. destruct F as [F|F]; [contradiction|]. apply (definite A (d i) SA); [|exact F].
    apply (not_null (r i)). rewrite P2 by lia. apply D. lia.
  - intros j Hj N. destruct (Nat.lt_gt_cases j i) as [[L|L] _]; [exact N| |].
    + cbv beta. rewrite (apply_sym A (d j) (d i)) by apply SA. rewrite (P3 i j) by lia. ring.
    + rewrite (P3 j i) by lia. ring.
Qed.
Lemma orthogonal_combination k c : (forall j, (j < k)%nat -> delta j <> 0) -> dot (combination k c (fun j => d j)) (r k) = 0.
Proof.
  intros D. destruct (orthogonal_ok k D) as (P1 & _). unfold combination. rewrite (dot_sum_l k c (fun j => d j)). apply sum_zero. intros j Hj. rewrite dot_comm, P1 by lia. ring.
Qed.
Lemma energy_add (u v : vec) : energy n A b (fun i => u i + v i) = energy n A b u + dot v (apply A v) - (1 + 1) * dot v (fun i => b i - apply A u i).
Proof.
  unfold energy. change (@inner K n) with (@CgModel.dot K n). change (@times K n) with (@CgModel.apply K n).
  assert (forall w, dot w (apply A (fun i => u i + v i)) = dot w (apply A u) + dot w (apply A v)) as E.
  { intros w. rewrite (dot_comm w (apply A u)), (dot_comm w (apply A v)), <- dot_add_l, dot_comm. apply dot_ext; [|reflexivity]. intros i _. apply apply_add. }
  rewrite E, !dot_add_l, (apply_sym A u v) by apply SA. rewrite (dot_comm v (fun i => b i - apply A u i)), dot_sub_l.
  rewrite (dot_comm b (fun i => u i + v i)), dot_add_l, (dot_comm (apply A u) v), (dot_comm b u), (dot_comm b v). ring.
Qed.
Lemma optimal_ext (u v w : vec) : (forall i, v i = w i) -> energy n A b (fun i => u i + v i) = energy n A b u + dot v (apply A v) -> energy n A b (fun i => u i + w i) = energy n A b u + dot w (apply A w).
Proof.
  intros E. assert (forall i, apply A v i = apply A w i) as F by (intros i; apply sum_ext; intros; rewrite E; reflexivity).
  rewrite (dot_ext v (apply A v) w (apply A w)) by auto. intros <-. unfold energy. f_equal; [|f_equal]; apply sum_ext; intros i _; rewrite ?E; [|reflexivity].
  f_equal. apply sum_ext. intros; rewrite E; reflexivity.
Qed.
Lemma optimal k c : (forall j, (j < k)%nat -> delta j <> 0) -> let v := combination k c (fun j => d j) in
  energy n A b (fun i => x k i + v i) = energy n A b (x k) + dot v (apply A v).
Proof.
  intros D v. rewrite energy_add. rewrite (dot_ext v (fun i => b i - apply A (x k) i) v (r k)) by (intros; auto; symmetry; apply residual_ok).
  unfold v at 3. rewrite orthogonal_combination by exact D. ring.
Qed.
End Spd.

(** ** The model *)
Context (tol : K).
Notation iterations junk k := (CgModel.iterations n A M b tol x0 junk k).
Context (junk : vec) (B : dot b b <> 0).
Lemma eqb_false (a c : K) : a <> c -> eqb a c = false.
Proof. intros N. pose proof (eqb_spec a c). destruct (eqb a c); [contradiction|reflexivity]. Qed.
Lemma initialize_ok s : initialize n A M b tol x0 junk = Fine s -> s = at_step x0 0.
Proof. unfold initialize. rewrite eqb_false by exact B. destruct (below tol _); [discriminate|]. intros E. injection E as <-. reflexivity. Qed.
Lemma fine_ok k : forall s, iterations junk k = Fine s -> s = at_step x0 k /\ forall j, (j < k)%nat -> delta j <> 0.
Proof.
  induction k as [|k IH]; intros s E; [split; [apply initialize_ok, E|intros; lia]|]. cbn [CgModel.iterations] in E. destruct (iterations junk k) as [t|t|]; try discriminate.
  destruct (IH t eq_refl) as [-> D]. unfold iteration in E. cbn zeta in E. destruct (eqb _ 0) eqn:E1 in E; [discriminate|]. destruct (below tol _); [discriminate|].
  destruct (eqb (delta k) 0) eqn:E2 in E; [discriminate|]. injection E as <-. split; [reflexivity|]. intros j Hj. destruct (Nat.eq_dec j k) as [->|]; [|apply D; lia].
  intros F. apply eqb_ok in F. congruence.
Qed.
(** how the states of the model are visited *)
Lemma stops_ok k s : spd n A -> spd n M -> iterations junk k = Stops s -> exists j, (j <= k)%nat /\ iterations junk j = Stops s /\ s_x s = x j /\ s_r s = r j /\ s_niter s = j /\
  s_error2 s = div (dot (r j) (r j)) (dot b b) /\ below tol (s_error2 s) = true /\ forall i, (i < j)%nat -> delta i <> 0.
Proof.
  intros SA SM. revert s. induction k as [|k IH]; intros s E.
  - exists 0%nat. split; [lia|]. split; [exact E|]. cbn [CgModel.iterations] in E. unfold initialize in E. rewrite eqb_false in E by exact B. cbn zeta in E. destruct (below tol _) eqn:T; [|discriminate].
    injection E as <-. repeat split; auto. intros; lia.
  - cbn [CgModel.iterations] in E. destruct (iterations junk k) as [t|t|] eqn:I; [| |discriminate].
    + destruct (fine_ok k t I) as [-> D]. exists (S k). split; [lia|]. split; [cbn [CgModel.iterations]; rewrite I; exact E|].
      unfold iteration in E. cbn zeta in E. destruct (eqb _ 0) eqn:E1 in E; [discriminate|]. destruct (below tol _) eqn:T; [|destruct (eqb _ 0) in E; discriminate].
      injection E as <-. cbn [s_x s_r s_niter s_error2]. split; [reflexivity|]. split; [reflexivity|]. split; [rewrite niter_ok; reflexivity|]. split; [reflexivity|]. split; [exact T|].
      intros i Hi. destruct (Nat.eq_dec i k) as [->|]; [|apply D; lia]. intros F. pose proof (null_direction SM k F) as N.
      rewrite (dot_null (d k)) in E1 by exact N. pose proof (eqb_spec (0 : K) 0) as Z. rewrite E1 in Z. apply Z. reflexivity.
    + destruct (IH s E) as (j & Hj & R). exists j. split; [lia|exact R].
Qed.

(** for any matrices *)
Definition consistent (s : state K) : Prop := (forall i, s_r s i = b i - apply A (s_x s) i) /\ s_error2 s = div (dot (s_r s) (s_r s)) (dot b b).
Lemma initialize_consistent o : initialize n A M b tol x0 junk = o -> match o with Fine s => consistent s /\ below tol (s_error2 s) = false /\ s_niter s = 0%nat | Stops s => consistent s /\ below tol (s_error2 s) = true | NotANumber => True end.
Proof.
  intros <-. unfold initialize. rewrite eqb_false by exact B. cbn zeta. destruct (below tol _) eqn:T; repeat split; auto.
Qed.
Lemma iteration_consistent s : consistent s -> match iteration n A M b tol s with
  | Fine t => consistent t /\ below tol (s_error2 t) = false /\ s_niter t = S (s_niter s) | Stops t => consistent t /\ below tol (s_error2 t) = true /\ s_niter t = S (s_niter s) | NotANumber => True end.
Proof.
  intros [C1 C2]. unfold iteration. cbn zeta. destruct (eqb _ 0); [exact I|]. 
  assert (forall a i, s_r s i - a * apply A (s_d s) i = b i - apply A (fun i => s_x s i + a * s_d s i) i) as R.
  { intros a i. rewrite apply_add, apply_scal, C1. ring. }
  destruct (below tol _) eqn:T; [repeat split; auto; intros; apply R|]. destruct (eqb _ 0); [exact I|]. repeat split; auto; intros; apply R.
Qed.
Lemma loop_ok todo : forall s, consistent s -> below tol (s_error2 s) = false -> match loop n A M b tol todo s with
  | Success t => consistent t /\ below tol (s_error2 t) = true /\ (s_niter s < s_niter t <= s_niter s + todo)%nat
  | Failure t => consistent t /\ below tol (s_error2 t) = false /\ s_niter t = (s_niter s + todo)%nat
  | Garbage => True end.
Proof.
  induction todo as [|todo IH]; intros s C T; cbn [loop]. { repeat split; try apply C; auto. }
  pose proof (iteration_consistent s C) as I. destruct (iteration n A M b tol s) as [t|t|]; [| |exact I].
  - destruct I as (C' & T' & N). specialize (IH t C' T'). destruct (loop n A M b tol todo t); [| |exact I]; (destruct IH as (? & ? & ?); repeat split; try apply H; auto; lia).
  - destruct I as (C' & T' & N). repeat split; try apply C'; auto; lia.
Qed.
(** the number of iterations *)
Lemma loop_ends : spd n A -> spd n M -> lt 0 tol -> forall todo k, (forall j, (j <= k)%nat -> delta j <> 0) -> (n <= k + todo)%nat ->
  exists s, loop n A M b tol todo (at_step x0 k) = Success s /\ (s_niter s <= n)%nat.
Proof.
  intros SA SM T. assert ((1 : K) <> 0) as O. { intros E. pose proof (lt_neq _ _ T) as N. apply N. transitivity (1 * tol); [rewrite E|]; ring. }
  assert (forall k, (forall j, (j <= k)%nat -> delta j <> 0) -> (k < n)%nat) as L.
  { intros k D. destruct (Nat.lt_ge_cases k n) as [L|L]; [exact L|]. exfalso. apply (too_many SA SM O). intros j Hj. apply D. lia. }
  induction todo as [|todo IH]; intros k D H; [specialize (L k D); lia|]. specialize (L k D).
  destruct (orthogonal_ok SA SM k) as (_ & P2 & _); [intros; apply D; lia|].
  assert (dot (d k) (apply A (d k)) <> 0) as DA. { apply (definite A (d k) SA), (not_null (r k)). rewrite P2 by lia. apply D. lia. }
  cbn [loop]. unfold iteration. cbn zeta. rewrite (eqb_false _ _ DA). destruct (below tol _) eqn:Bl.
  - eexists. split; [reflexivity|]. cbn [s_niter]. rewrite niter_ok. lia.
  - rewrite (eqb_false (delta k) 0) by (apply D; lia). apply (IH (S k)); [|lia]. intros j Hj. destruct (Nat.eq_dec j (S k)) as [->|]; [|apply D; lia].
    intros F. apply (delta_null SM) in F. revert Bl. change (fun i => r k i - alpha k * apply A (d k) i) with (r (S k)). rewrite (dot_null (r (S k))) by exact F.
    rewrite div_0. unfold below. rewrite T. rewrite (lt_mul K tol tol T T). discriminate.
Qed.
Lemma initialize_ends : spd n M -> lt 0 tol -> match initialize n A M b tol x0 junk with Fine s => delta 0 <> 0 | _ => True end.
Proof.
  intros SM T. unfold initialize. rewrite eqb_false by exact B. cbn zeta. destruct (below tol _) eqn:Bl; [exact I|].
  intros F. apply (delta_null SM) in F. revert Bl. change (fun i => b i - apply A x0 i) with (r 0). rewrite (dot_null (r 0)) by exact F.
  rewrite div_0. unfold below. rewrite T. rewrite (lt_mul K tol tol T T). discriminate.
Qed.
Lemma iterations_fine k j s : (j <= k)%nat -> iterations junk k = Fine s -> exists t, iterations junk j = Fine t.
Proof.
  revert s. induction k as [|k IH]; intros s Hj E; [replace j with 0%nat by lia; eauto|]. destruct (Nat.eq_dec j (S k)) as [->|]; [eauto|].
  cbn [CgModel.iterations] in E. destruct (iterations junk k) as [t|t|] eqn:I; try discriminate. apply (IH t); [lia|reflexivity].
Qed.
End Cg.
