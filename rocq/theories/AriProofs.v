(** Proofs about arithmetic expressions with operators. *)
From Verif Require Import Base Algebra Matrix AriModel AriSpec.
Local Open Scope nat_scope.

Section Matrices.
Context {K : cring}.
Add Ring KringAri : (rth K).
Ltac elt := apply mx_eq; intros i j Hi Hj; unfold oppmx, vhad, addmx, mulmx, mapmx, trmx, scalarmx, zeromx, diag_of, vmap2, vfill, product, inverses, constant; rewrite ?el_build by lia.
Lemma mulmxDl {m n p} (A B : mx K m n) (C : mx K n p) : mulmx (addmx A B) C = addmx (mulmx A C) (mulmx B C).
Proof. elt. rewrite <- sum_add. apply sum_ext. intros k Hk. rewrite el_build by assumption. ring. Qed.
Lemma mul0mx {m n p} (C : mx K n p) : mulmx (@zeromx _ m n) C = zeromx.
Proof. elt. apply sum_zero. intros k Hk. rewrite el_build by assumption. ring. Qed.
Lemma mulmx0 {m n p} (C : mx K m n) : mulmx C (@zeromx _ n p) = zeromx.
Proof. elt. apply sum_zero. intros k Hk. rewrite el_build by assumption. ring. Qed.
Lemma add0mx {m n} (A : mx K m n) : addmx zeromx A = A.
Proof. elt. ring. Qed.
Lemma addmx0 {m n} (A : mx K m n) : addmx A zeromx = A.
Proof. elt. ring. Qed.
Lemma scalarmx_mul {m n} a (A : mx K m n) : mulmx (scalarmx m a) A = mapmx (rmul a) A.
Proof.
  elt. rewrite (sum_ext _ _ (fun k => if Nat.eqb i k then rmul a (el A k j) else r0)).
  - apply (sum_pick m i (fun k => rmul a (el A k j))). exact Hi.
  - intros k Hk. rewrite el_build by assumption. destruct (Nat.eqb i k); ring.
Qed.
Lemma opp_scalar {m n} (A : mx K m n) : oppmx A = mulmx (scalarmx m (ropp r1)) A.
Proof. rewrite scalarmx_mul. elt. ring. Qed.
Lemma oppmx0 {m n} : oppmx (@zeromx K m n) = zeromx.
Proof. elt. ring. Qed.
Lemma opp_of_scalar n (a : K) : oppmx (scalarmx n a) = scalarmx n (ropp a).
Proof. elt. destruct (Nat.eqb i j); ring. Qed.
Lemma scalarmx_0 n : scalarmx n (@r0 K) = @zeromx K n n.
Proof. elt. destruct (Nat.eqb i j); reflexivity. Qed.
Lemma trmx_opp {m n} (A : mx K m n) : trmx (oppmx A) = oppmx (trmx A).
Proof. elt. reflexivity. Qed.
Lemma diag_mul n (v x : mx K n 1) : mulmx (diag_of n v) x = vhad v x.
Proof.
  elt. rewrite (sum_ext _ _ (fun k => if Nat.eqb i k then rmul (el v i 0) (el x k j) else r0)).
  - assert (j = 0) as -> by lia. apply (sum_pick n i (fun k => rmul (el v i 0) (el x k 0))). exact Hi.
  - intros k Hk. rewrite el_build by assumption. destruct (Nat.eqb i k); ring.
Qed.
Lemma trmx_diag_of n (v : mx K n 1) : trmx (diag_of n v) = diag_of n v.
Proof. elt. rewrite Nat.eqb_sym. destruct (Nat.eqb i j) eqn:E; [|reflexivity]. apply Nat.eqb_eq in E. subst. reflexivity. Qed.
Lemma diag_fill n a : diag_of n (@vfill K n a) = scalarmx n a.
Proof. elt. reflexivity. Qed.
Lemma diag_zero n : diag_of n (@zeromx K n 1) = zeromx.
Proof. elt. destruct (Nat.eqb i j); reflexivity. Qed.
Lemma mulmx_ext {n} (A B : mx K n n) : (forall x : mx K n 1, mulmx A x = mulmx B x) -> A = B.
Proof.
  intros H. apply mx_eq. intros i j Hi Hj. specialize (H (build n 1 (fun k _ => if Nat.eqb j k then r1 else r0))). apply (el_ext _ _ i 0) in H.
  assert (E : forall C : mx K n n, el (mulmx C (build n 1 (fun k _ => if Nat.eqb j k then r1 else r0))) i 0 = el C i j).
  { intros C. unfold mulmx. rewrite el_build by lia. rewrite (sum_ext _ _ (fun k => if Nat.eqb j k then el C i k else r0)); [apply (sum_pick n j (fun k => el C i k)); exact Hj|].
    intros k Hk. rewrite el_build by lia. destruct (Nat.eqb j k); ring. }
  rewrite !E in H. exact H.
Qed.
Lemma vhad_comm n (u v : mx K n 1) : vhad u v = vhad v u.
Proof. elt. ring. Qed.
End Matrices.

Section Arithmetic.
Context {K : cring} (n : nat) (eqb : K -> K -> bool) (recip : K -> K) (rules : bool) (variables : nat -> operator K n).
Hypothesis eqbP : forall a b, eqb a b = true <-> a = b.
Notation vec := (mx K n 1).
Notation linear_operator := (@linear_operator K n).
Notation eval := (eval eqb recip rules variables).

Lemma all_zero_true (v : vec) : all_zero eqb v = true -> v = zeromx.
Proof.
  intros H. unfold all_zero in H. rewrite forallb_forall in H. apply mx_eq. intros i j Hi Hj. unfold zeromx. rewrite el_build by assumption.
  apply eqbP, H. unfold el. apply nth_In. pose proof (proj1 (Nat.eqb_eq _ _) (mx_size _ _ _ v)) as L. rewrite L. nia.
Qed.

(** ** Linear operators *)
Lemma lin_zero : linear_operator zero_op zeromx.
Proof. split; [reflexivity|]. split; [intros x; symmetry; apply mul0mx|]. split; [intros x; rewrite trmx0; symmetry; apply mul0mx|]. split; [discriminate|reflexivity]. Qed.
Lemma lin_homothety a : linear_operator (homothety eqb a) (scalarmx n a).
Proof.
  unfold homothety. destruct (eqb a r0) eqn:E.
  - apply eqbP in E. subst a. rewrite scalarmx_0. apply lin_zero.
  - split; [reflexivity|]. split; [intros x; symmetry; apply scalarmx_mul|]. split; [intros x; rewrite trmx_scalar; symmetry; apply scalarmx_mul|]. split; discriminate.
Qed.
Lemma lin_diagonal v : linear_operator (diagonal eqb v) (diag_of n v).
Proof.
  unfold diagonal. destruct (all_zero eqb v) eqn:E.
  - apply all_zero_true in E. subst v. rewrite diag_zero. apply lin_zero.
  - split; [reflexivity|]. split; [intros x; symmetry; apply diag_mul|]. split; [intros x; rewrite trmx_diag_of; symmetry; apply diag_mul|]. split; discriminate.
Qed.
Lemma lin_dense M : linear_operator (dense M) M.
Proof. split; [reflexivity|]. split; [reflexivity|]. split; [reflexivity|]. split; discriminate. Qed.
Lemma lin_addition a b A B : linear_operator a A -> linear_operator b B -> linear_operator (addition rules a b) (addmx A B).
Proof.
  intros Ha Hb. unfold addition. destruct (rules && o_zero a) eqn:Ea.
  { apply andb_true_iff in Ea. destruct Ha as (_ & _ & _ & _ & Z). rewrite (Z (proj2 Ea)), add0mx. exact Hb. }
  destruct (rules && o_zero b) eqn:Eb.
  { apply andb_true_iff in Eb. destruct Hb as (_ & _ & _ & _ & Z). rewrite (Z (proj2 Eb)), addmx0. exact Ha. }
  destruct Ha as (La & Da & Ta & _), Hb as (Lb & Db & Tb & _). split; [cbn; rewrite La, Lb; reflexivity|].
  split; [intros x; cbn [o_direct]; rewrite Da, Db, mulmxDl; reflexivity|]. split; [intros x; cbn [o_transpose]; rewrite Ta, Tb, trmxD, mulmxDl; reflexivity|]. split; discriminate.
Qed.
Lemma lin_composition a b A B : linear_operator a A -> linear_operator b B -> linear_operator (composition rules a b) (mulmx A B).
Proof.
  intros Ha Hb. unfold composition. destruct (rules && (o_zero a || o_zero b)) eqn:E.
  { apply andb_true_iff in E. destruct E as (_ & E). apply orb_true_iff in E. destruct Ha as (_ & _ & _ & _ & Za), Hb as (_ & _ & _ & _ & Zb).
    destruct E as [E|E]; [rewrite (Za E), mul0mx|rewrite (Zb E), mulmx0]; apply lin_zero. }
  destruct Ha as (La & Da & Ta & _), Hb as (Lb & Db & Tb & _). split; [cbn; rewrite La, Lb; reflexivity|].
  split; [intros x; cbn [o_direct]; rewrite Da, Db, mulmxA; reflexivity|]. split; [intros x; cbn [o_transpose]; rewrite Tb, Ta, trmx_mul, mulmxA; reflexivity|]. split; discriminate.
Qed.
Lemma lin_unique o A B : linear_operator o A -> linear_operator o B -> A = B.
Proof. intros (_ & D & _) (_ & D' & _). apply mulmx_ext. intros x. rewrite <- D. apply D'. Qed.
Lemma lin_constant v a A : rules = true -> linear_operator a A -> linear_operator (multiply_constant eqb rules v a) (mulmx (diag_of n v) A).
Proof.
  intros Hr Ha. unfold multiply_constant. destruct (all_zero eqb v) eqn:E.
  - apply all_zero_true in E. subst v. rewrite diag_zero, mul0mx. unfold multiplication. rewrite Hr. cbn [o_zero zero_op orb andb]. apply lin_zero.
  - rewrite Hr, (proj1 Ha). cbn [andb]. rewrite <- Hr. apply lin_composition; [apply lin_diagonal|exact Ha].
Qed.
Lemma lin_pow o A k : linear_operator o A -> linear_operator (fold_right (composition rules) o (repeat o k)) (powmx n A (S k)).
Proof.
  intros H. induction k as [|k IH]; cbn [repeat fold_right powmx]; [rewrite mulmx1; exact H|]. apply lin_composition; [exact H|exact IH].
Qed.

(** ** Linear expressions *)
Definition gives (e : expr K n) (o : operator K n) : Prop := exists id, eval e = Ok (Op id o) /\ forall i, id = Some i -> o = variables i.

Lemma mul_lin id o id' o' A B : (forall i, id = Some i -> o = variables i) -> (forall i, id' = Some i -> o' = variables i) -> linear_operator o A -> linear_operator o' B ->
  exists id'' o'', mul eqb rules id o (Op id' o') = Ok (Op id'' o'') /\ (forall i, id'' = Some i -> o'' = variables i) /\ linear_operator o'' (mulmx A B).
Proof.
  intros Hi Hi' Ha Hb. unfold mul. cbn [as_operator as_constant rbind]. rewrite (proj1 Ha), (proj1 Hb). cbn [negb orb].
  assert (D : exists id'' o'', Ok (fresh (composition rules o o')) = Ok (Op id'' o'') /\ (forall i, id'' = Some i -> o'' = variables i) /\ linear_operator o'' (mulmx A B)).
  { exists None, (composition rules o o'). split; [reflexivity|]. split; [discriminate|]. apply lin_composition; assumption. }
  destruct id as [i|]; [|exact D]. destruct id' as [i'|]; [|exact D]. destruct (o_idempotent o && Nat.eqb i i') eqn:E; [|exact D].
  apply andb_true_iff in E. destruct E as (E1 & E2). apply Nat.eqb_eq in E2. subst i'. pose proof (Hi i eq_refl) as Ho. pose proof (Hi' i eq_refl) as Ho'. rewrite <- Ho in Ho'. subst o'.
  exists (Some i), o. split; [reflexivity|]. split; [intros j [= <-]; exact Ho|]. rewrite <- (lin_unique _ _ _ Ha Hb). destruct (Ha) as (_ & _ & _ & Id & _). rewrite (Id E1). exact Ha.
Qed.
Lemma neg_lin id o A : (forall i, id = Some i -> o = variables i) -> linear_operator o A ->
  exists id' o', neg eqb rules id o = Ok (Op id' o') /\ (forall i, id' = Some i -> o' = variables i) /\ linear_operator o' (oppmx A).
Proof.
  intros Hi H. unfold neg. destruct (o_zero o) eqn:Z.
  - exists id, o. split; [reflexivity|]. split; [exact Hi|]. destruct (H) as (_ & _ & _ & _ & E). specialize (E Z). subst A. rewrite oppmx0. exact H.
  - rewrite opp_scalar. apply mul_lin; [discriminate|exact Hi|apply lin_homothety|exact H].
Qed.
Lemma as_matrix_operator x B : as_matrix n x B -> exists o, as_operator eqb x = Ok o /\ linear_operator o B.
Proof. intros [a|M]; cbn [as_operator]; eexists; (split; [reflexivity|]); [apply lin_homothety|apply lin_dense]. Qed.
Lemma as_matrix_opp x B : as_matrix n x B -> exists y, neg_object eqb rules x = Ok y /\ as_matrix n y (oppmx B).
Proof. intros [a|M]; cbn [neg_object]; eexists; (split; [reflexivity|]); [rewrite opp_of_scalar; apply m_num|apply m_mat]. Qed.
Lemma add_lin o x o' A B : linear_operator o A -> as_operator eqb x = Ok o' -> linear_operator o' B -> exists o'', add eqb rules o x = Ok (Op None o'') /\ linear_operator o'' (addmx A B).
Proof. intros Ha E Hb. unfold add. rewrite E. cbn [rbind]. eexists. split; [reflexivity|]. apply lin_addition; assumption. Qed.
Lemma radd_lin o x o' A B : linear_operator o A -> as_operator eqb x = Ok o' -> linear_operator o' B -> exists o'', radd_op eqb rules o x = Ok (Op None o'') /\ linear_operator o'' (addmx B A).
Proof. intros Ha E Hb. unfold radd_op. rewrite E. cbn [rbind]. eexists. split; [reflexivity|]. apply lin_addition; assumption. Qed.

Lemma linear_right e A : linear_expr n recip rules variables e A -> exists o, gives e o /\ linear_operator o A.
Proof.
  assert (fin : forall r A, (exists o, r = Ok (Op None o) /\ linear_operator o A) -> exists id o, r = Ok (Op id o) /\ (forall i, id = Some i -> o = variables i) /\ linear_operator o A : Prop).
  { intros r B (o & E & H). exists None, o. split; [exact E|]. split; [discriminate|exact H]. }
  assert (key : linear_expr n recip rules variables e A -> exists id o, eval e = Ok (Op id o) /\ (forall i, id = Some i -> o = variables i) /\ linear_operator o A).
  2: { intros H. destruct (key H) as (id & o & E & I & L). exists o. split; [exists id; auto|exact L]. }
  intros H. induction H as [i A H|e A H (id & o & E & I & L)
    |e e' A B H (id & o & E & I & L) H' (id' & o' & E' & I' & L')|e e' A B H (id & o & E & I & L) H' (id' & o' & E' & I' & L')|e e' A B H (id & o & E & I & L) H' (id' & o' & E' & I' & L')
    |e x A B H (id & o & E & I & L) Hx|e x A B H (id & o & E & I & L) Hx|e x A B H (id & o & E & I & L) Hx|e x A B H (id & o & E & I & L) Hx
    |e a A H (id & o & E & I & L)|e a A H (id & o & E & I & L)|e k v A H (id & o & E & I & L)|e v A H (id & o & E & I & L)|e a A Hr H (id & o & E & I & L)|e k v A Hr H (id & o & E & I & L)|e k A H (id & o & E & I & L)];
    cbn [AriModel.eval]; rewrite ?E, ?E'; cbn [rbind].
  - exists (Some i), (variables i). split; [reflexivity|]. split; [intros j [= <-]; reflexivity|exact H].
  - exact (neg_lin id o A I L).
  - apply fin. cbn [binary method]. exact (add_lin o (Op id' o') o' A B L eq_refl L').
  - apply fin. cbn [binary method]. unfold sub. cbn [neg_object]. destruct (neg_lin id' o' B I' L') as (id2 & o2 & -> & _ & L2). cbn [rbind]. exact (add_lin o (Op id2 o2) o2 A _ L eq_refl L2).
  - cbn [binary method]. exact (mul_lin id o id' o' A B I I' L L').
  - apply fin. cbn [binary method]. destruct (as_matrix_operator x B Hx) as (o2 & E2 & L2). exact (add_lin o x o2 A B L E2 L2).
  - apply fin. cbn [binary method]. unfold sub. destruct (as_matrix_opp x B Hx) as (y & -> & Hy). cbn [rbind]. destruct (as_matrix_operator y _ Hy) as (o2 & E2 & L2). exact (add_lin o y o2 A _ L E2 L2).
  - apply fin. cbn [binary method]. unfold mul. rewrite (proj1 L). destruct (as_matrix_operator x B Hx) as (o2 & E2 & L2). destruct Hx as [a|M]; cbn [as_constant]; rewrite E2; cbn [rbind]; rewrite (proj1 L2); cbn [negb orb];
      (destruct id; (eexists; split; [reflexivity|]; apply lin_composition; assumption)).
  - apply fin. destruct (as_matrix_operator x B Hx) as (o2 & E2 & L2). destruct Hx as [a|M]; cbn [binary reflected]; unfold rmul_op; rewrite (proj1 L); cbn [as_constant]; rewrite E2; cbn [rbind]; rewrite (proj1 L2); cbn [negb orb];
      (eexists; split; [reflexivity|]; apply lin_composition; assumption).
  - apply fin. cbn [binary reflected]. exact (radd_lin o (Num a) _ A _ L eq_refl (lin_homothety a)).
  - apply fin. cbn [binary reflected]. unfold rsub_op. destruct (neg_lin id o A I L) as (id2 & o2 & -> & _ & L2). cbn [rbind]. exact (radd_lin o2 (Num a) _ _ _ L2 eq_refl (lin_homothety a)).
  - apply fin. cbn [binary method]. exact (add_lin o (Vec k v) _ A _ L eq_refl (lin_diagonal v)).
  - apply fin. cbn [binary reflected]. exact (radd_lin o (Vec ListOrTuple v) _ A _ L eq_refl (lin_diagonal v)).
  - apply fin. cbn [binary method div]. eexists. split; [reflexivity|]. rewrite <- diag_fill. apply lin_constant; assumption.
  - apply fin. cbn [binary method div]. eexists. split; [reflexivity|]. exact (lin_constant (mapmx recip v) o A Hr L).
  - unfold pow. rewrite (proj1 L). cbn [negb]. destruct k as [|[|k]].
    + apply fin. eexists. split; [reflexivity|]. cbn [powmx]. split; [reflexivity|]. split; [intros x; symmetry; apply mul1mx|]. split; [intros x; rewrite trmx1; symmetry; apply mul1mx|]. split; [intros _; apply mul1mx|discriminate].
    + exists id, o. split; [reflexivity|]. split; [exact I|]. cbn [powmx]. rewrite mulmx1. exact L.
    + apply fin. eexists. split; [reflexivity|]. exact (lin_pow o A (S k) L).
Qed.

(** ** Arrays *)
Lemma array_right e A k v : linear_expr n recip rules variables e A -> eval (Bin Mul e (Lit (Vec k v))) = Ok (Vec Array (mulmx A v)).
Proof.
  intros H. destruct (linear_right e A H) as (o & (id & E & _) & L). cbn [AriModel.eval]. rewrite E. cbn [rbind binary method]. unfold mul. rewrite (proj1 L). destruct L as (_ & D & _). rewrite D. reflexivity.
Qed.
Lemma array_left e A v : linear_expr n recip rules variables e A -> eval (Bin Mul (Lit (Vec ListOrTuple v)) e) = Ok (Vec Array (mulmx (trmx A) v)).
Proof.
  intros H. destruct (linear_right e A H) as (o & (id & E & _) & L). cbn [AriModel.eval]. rewrite E. cbn [rbind binary reflected]. unfold rmul_op. rewrite (proj1 L). destruct L as (_ & _ & T & _). rewrite T. reflexivity.
Qed.

(** ** Functions *)
Definition represents (b : bool) (f : vec -> vec) (o : operator K n) : Prop :=
  o_linear o = b /\ (forall x, o_direct o x = f x) /\ (o_zero o = true -> b = true /\ forall x, f x = zeromx).
Lemma not_zero b f o : represents b f o -> nontrivial n b f -> o_zero o = false.
Proof.
  intros (_ & _ & Z) N. destruct (o_zero o); [|reflexivity]. destruct (Z eq_refl) as (E & H). destruct (N E) as (x & Hx). contradiction (Hx (H x)).
Qed.
Lemma represents_nl f g : (forall x, f x = g x) -> represents false g (nonlinear f).
Proof. intros H. split; [reflexivity|]. split; [exact H|discriminate]. Qed.
Lemma rep_addition b b' f g o o' : represents b f o -> represents b' g o' -> b && b' = false -> represents false (fun x => addmx (f x) (g x)) (addition rules o o').
Proof.
  intros (L & D & Z) (L' & D' & Z') B. unfold addition. destruct (rules && o_zero o) eqn:E.
  { apply andb_true_iff in E. destruct (Z (proj2 E)) as (-> & F). cbn in B. subst b'. split; [exact B|]. split; [intros x; rewrite F, add0mx; apply D'|]. intros Q. destruct (Z' Q). congruence. }
  destruct (rules && o_zero o') eqn:E'.
  { apply andb_true_iff in E'. destruct (Z' (proj2 E')) as (-> & F). rewrite andb_true_r in B. subst b. split; [exact B|]. split; [intros x; rewrite F, addmx0; apply D|]. intros Q. destruct (Z Q). congruence. }
  split; [cbn; rewrite L, L'; exact B|]. split; [intros x; cbn [o_direct]; rewrite D, D'; reflexivity|discriminate].
Qed.
Lemma rep_multiplication b b' f g o o' : represents b f o -> represents b' g o' -> nontrivial n b f -> nontrivial n b' g -> represents false (fun x => product n (f x) (g x)) (multiplication rules o o').
Proof.
  intros R R' N N'. unfold multiplication. rewrite (not_zero _ _ _ R N), (not_zero _ _ _ R' N'). rewrite andb_false_r. apply represents_nl. intros x. destruct R as (_ & D & _), R' as (_ & D' & _). rewrite D, D'. reflexivity.
Qed.
Lemma rep_constant v f o : represents false f o -> v <> zeromx -> represents false (fun x => product n v (f x)) (multiply_constant eqb rules v o).
Proof.
  intros (L & D & Z) N. unfold multiply_constant. destruct (all_zero eqb v) eqn:E; [contradiction (N (all_zero_true _ E))|]. rewrite L, andb_false_r.
  destruct (rules && o_zero o) eqn:E'. { apply andb_true_iff in E'. destruct (Z (proj2 E')). discriminate. }
  apply represents_nl. intros x. rewrite D. reflexivity.
Qed.
Lemma fill_not_zero a : (0 < n)%nat -> a <> r0 -> @vfill K n a <> zeromx.
Proof. intros Hn H E. apply H. apply (el_ext _ _ 0 0) in E. unfold vfill, zeromx in E. rewrite !el_build in E by lia. exact E. Qed.
Lemma product_comm (u v : vec) : product n u v = product n v u.
Proof. exact (vhad_comm n u v). Qed.
Lemma represents_ext b f g o : (forall x, f x = g x) -> represents b f o -> represents b g o.
Proof. intros H (L & D & Z). split; [exact L|]. split; [intros x; rewrite <- H; apply D|]. intros Q. destruct (Z Q) as (E & F). split; [exact E|]. intros x. rewrite <- H. apply F. Qed.
Lemma rep_reciprocal b f o : represents b f o -> nontrivial n b f -> exists r, reciprocal recip o = Ok r /\ represents false (fun x => inverses n recip (f x)) r.
Proof.
  intros R N. unfold reciprocal. rewrite (not_zero _ _ _ R N). eexists. split; [reflexivity|]. apply represents_nl. intros x. destruct R as (_ & D & _). rewrite D. reflexivity.
Qed.
Lemma powers_one (u : vec) : powers n 1 u = u.
Proof. apply mx_eq. intros i j Hi Hj. unfold powers. rewrite el_build by assumption. cbn [times]. apply rmul_1_r. Qed.
Lemma nontrivial_false (f : vec -> vec) : nontrivial n false f.
Proof. discriminate. Qed.

Lemma function_right b e f : (0 < n)%nat -> function_expr n recip rules variables b e f -> exists id o, eval e = Ok (Op id o) /\ represents b f o.
Proof.
  intros Hn H. induction H as [e A H|i L Z|b b' e e' f g H (id & o & E & R) H' (id' & o' & E' & R') B|b b' e e' f g H (id & o & E & R) H' (id' & o' & E' & R') B N N'|b b' e e' f g H (id & o & E & R) H' (id' & o' & E' & R') N N'
    |e f a H (id & o & E & R) Ha|e f a H (id & o & E & R) Ha|e f k v H (id & o & E & R) Hv|e f v H (id & o & E & R) Hv|e f k v H (id & o & E & R) Hv|e f a H (id & o & E & R) Ha|b e f a H (id & o & E & R) N Ha|e f k H (id & o & E & R) Hk]; cbn [AriModel.eval]; rewrite ?E, ?E'; cbn [rbind].
  - destruct (linear_right e A H) as (o & (id & E & _) & (L & D & _ & _ & Z)). exists id, o. split; [exact E|]. split; [exact L|]. split; [exact D|]. intros Q. split; [reflexivity|]. intros x. rewrite (Z Q). apply mul0mx.
  - exists (Some i), (variables i). split; [reflexivity|]. split; [exact L|]. split; [reflexivity|]. rewrite Z. discriminate.
  - cbn [binary method add as_operator rbind]. unfold add. cbn [as_operator rbind]. eexists _, _. split; [reflexivity|]. exact (rep_addition _ _ _ _ _ _ R R' B).
  - cbn [binary method]. unfold mul. cbn [as_operator as_constant rbind]. rewrite (proj1 R), (proj1 R'). assert (Q : negb b || negb b' = true) by (destruct b, b'; auto). rewrite Q.
    exists None, (multiplication rules o o'). split; [destruct b; reflexivity|]. exact (rep_multiplication _ _ _ _ _ _ R R' N N').
  - cbn [binary method div]. cbn [as_operator rbind]. destruct (rep_reciprocal _ _ _ R' N') as (r & -> & Rr). cbn [rbind]. eexists _, _. split; [reflexivity|]. exact (rep_multiplication _ _ _ _ _ _ R Rr N (nontrivial_false _)).
  - cbn [binary reflected]. unfold rmul_op. rewrite (proj1 R). cbn [as_constant]. eexists _, _. split; [reflexivity|]. exact (rep_constant (vfill a) f o R (fill_not_zero a Hn Ha)).
  - cbn [binary method]. unfold mul. rewrite (proj1 R). cbn [as_constant]. eexists _, _. split; [reflexivity|]. apply (represents_ext false (fun x => product n (vfill a) (f x))); [intros x; apply product_comm|]. exact (rep_constant (vfill a) f o R (fill_not_zero a Hn Ha)).
  - cbn [binary method]. unfold mul. rewrite (proj1 R). cbn [as_constant]. eexists _, _. split; [reflexivity|]. apply (represents_ext false (fun x => product n v (f x))); [intros x; apply product_comm|]. exact (rep_constant v f o R Hv).
  - cbn [binary reflected]. unfold rmul_op. rewrite (proj1 R). cbn [as_constant]. eexists _, _. split; [reflexivity|]. exact (rep_constant v f o R Hv).
  - cbn [binary method div]. eexists _, _. split; [reflexivity|]. apply (represents_ext false (fun x => product n (mapmx recip v) (f x))); [intros x; apply product_comm|]. exact (rep_constant (mapmx recip v) f o R Hv).
  - cbn [binary method div]. eexists _, _. split; [reflexivity|]. apply (represents_ext false (fun x => product n (vfill (recip a)) (f x))); [intros x; apply product_comm|]. exact (rep_constant _ f o R (fill_not_zero _ Hn Ha)).
  - cbn [binary reflected]. unfold rdiv. destruct (rep_reciprocal _ _ _ R N) as (r & -> & Rr). cbn [rbind as_constant]. eexists _, _. split; [reflexivity|]. exact (rep_constant (vfill a) _ r Rr (fill_not_zero a Hn Ha)).
  - unfold pow. rewrite (proj1 R). cbn [negb]. destruct k as [|[|k]]; [lia| |].
    + eexists _, _. split; [reflexivity|]. apply (represents_ext false f); [|exact R]. intros x. symmetry. apply powers_one.
    + eexists _, _. split; [reflexivity|]. apply represents_nl. intros x. destruct R as (_ & D & _). rewrite D. reflexivity.
Qed.
End Arithmetic.

(** ** Cases on one element *)
From Verif Require Import Gauss.
Definition one (a : Z) : mx Zring 1 1 := build 1 1 (fun _ _ => (a : Zring)).
(** Variable 0: the square.  Variable 1: the matrix 3.  Variable 2: the identity.  Variable 3: the matrix 5. *)
Definition sample (i : nat) : operator Zring 1 :=
  match i with 0 => nonlinear (fun x => vhad x x) | 1 => dense (one 3) | 2 => identity | _ => dense (one 5) end.
(** Reciprocals of 1 and -1 only *)
Definition zrecip (a : Zring) : Zring := a.
Definition zeqb (a b : Zring) : bool := Z.eqb a b.
Lemma zeqbP (a b : Zring) : zeqb a b = true <-> a = b.
Proof. apply Z.eqb_eq. Qed.
(** What the expression computes for the number a *)
Definition run (rules : bool) (e : expr Zring 1) (a : Z) : result (option (list Z)) :=
  x <- eval zeqb zrecip rules sample e ;;
  Ok (match x with Op _ o => Some (mx_list (o_direct o (one a))) | _ => None end).
Lemma sample_linear i : i = 1 \/ i = 3 -> linear_operator 1 (sample i) (one (if Nat.eqb i 1 then 3 else 5)%Z).
Proof. intros [-> | ->]; exact (lin_dense 1 _). Qed.
Lemma sample_identity : linear_operator 1 (sample 2) (onemx 1).
Proof.
  split; [reflexivity|]. split; [intros x; symmetry; apply mul1mx|]. split; [intros x; rewrite trmx1; symmetry; apply mul1mx|]. split; [intros _; apply mul1mx|discriminate].
Qed.
Lemma scipy_right (K : cring) n eqb (A : mx K n n) : exists o, as_operator eqb (Scipy (mulmx A) (mulmx (trmx A))) = Ok o /\ linear_operator n o A.
Proof. eexists. split; [reflexivity|]. split; [reflexivity|]. split; [reflexivity|]. split; [reflexivity|]. split; discriminate. Qed.
Lemma left_array {K : cring} n (eqb : K -> K -> bool) recip rules variables i (v : mx K n 1) : o_linear (variables i) = true ->
  eval eqb recip rules variables (Bin Mul (Lit (Vec ListOrTuple v)) (Var i)) = Ok (Vec Array (o_transpose (variables i) v)) /\
  exists l, eval eqb recip rules variables (Bin Mul (Lit (Vec Array v)) (Var i)) = Ok (Objects l) /\ length l = n /\ Forall (fun x => exists id o, x = Op id o) l.
Proof.
  intros H. split; [cbn [AriModel.eval rbind binary reflected]; unfold rmul_op; rewrite H; reflexivity|].
  cbn [AriModel.eval rbind binary]. assert (L : length (mx_list v) = n) by (pose proof (proj1 (Nat.eqb_eq _ _) (mx_size _ _ _ v)); lia).
  assert (key : forall l0 m, length l0 = m -> exists l, (l <- rmap (fun a => reflected eqb recip rules Mul (Some i) (variables i) (Num a)) l0 ;; Ok (Objects l)) = Ok (Objects l) /\
    length l = m /\ Forall (fun x : object K n => exists id o, x = Op id o) l); [|exact (key _ _ L)].
  clear -H. intros l0. induction l0 as [|a l IH]; intros m L; cbn [rmap rbind].
  - exists []. split; [reflexivity|]. split; [exact L|constructor].
  - assert (E : exists o, reflected eqb recip rules Mul (Some i) (variables i) (Num a) = Ok (Op None o)).
    { cbn [reflected]. unfold rmul_op. rewrite H. cbn [as_constant as_operator rbind]. destruct (negb true || _); eexists; reflexivity. }
    destruct E as (o & ->). cbn [rbind]. destruct m as [|m]; [discriminate|]. cbn [length] in L. destruct (IH m ltac:(lia)) as (l' & E & L' & F).
    destruct (rmap _ l) as [y|]; [|discriminate]. cbn [rbind] in E |- *. eexists. split; [reflexivity|]. injection E as <-. split; [cbn [length]; lia|]. constructor; [eauto|exact F].
Qed.
