From Verif Require Import Base Algebra RotModel RotSpec.
Local Open Scope nat_scope.

Section Proofs.
Context {K : cring}.
Add Ring KringR : (rth K).

Ltac cases3 H i := let Hi := fresh in assert (i = 0 \/ i = 1 \/ i = 2) as Hi by (clear - H; lia); destruct Hi as [->|[->| ->]].

Lemma matrix3_ok l a1 a2 a3 (m : list K) : convention l -> matrix3 (intrinsic l) a1 a2 a3 = Ok m ->
  mat_eq 3 (of_list m) (rotations (combine l [a1; a2; a3])).
Proof.
  intros C E. destruct a1 as [c1 s1], a2 as [c2 s2], a3 as [c3 s3]. destruct l as [|a [|b [|c [|]]]]; cbn in C; try tauto.
  - destruct a; cbn in E; injection E as <-; intros i j Hi Hj; cases3 Hi i; cases3 Hj j; cbn; ring.
  - destruct a, b; try congruence; cbn in E; injection E as <-; intros i j Hi Hj; cases3 Hi i; cases3 Hj j; cbn; ring.
  - destruct a, b; try (exfalso; tauto); destruct c; try (exfalso; tauto); cbn in E; injection E as <-; intros i j Hi Hj; cases3 Hi i; cases3 Hj j; cbn; ring.
Qed.
Lemma matrix3_total l a1 a2 a3 : convention l -> exists m : list K, matrix3 (intrinsic l) a1 a2 a3 = Ok m /\ length m = 9.
Proof.
  intros C. destruct a1 as [c1 s1], a2 as [c2 s2], a3 as [c3 s3]. destruct l as [|a [|b [|c [|]]]]; cbn in C; try tauto.
  - destruct a; eexists; split; reflexivity.
  - destruct a, b; try congruence; eexists; split; reflexivity.
  - destruct a, b; try (exfalso; tauto); destruct c; try (exfalso; tauto); eexists; split; reflexivity.
Qed.
Lemma matrix3_only conv a1 a2 a3 (m : list K) : matrix3 conv a1 a2 a3 = Ok m -> exists l, convention l /\ conv = intrinsic l.
Proof.
  destruct a1 as [c1 s1], a2 as [c2 s2], a3 as [c3 s3]. intros E.
  unfold matrix3 in E. repeat (match type of E with context [match ?x with _ => _ end] => is_var x; destruct x end; try discriminate E);
    match goal with
    | |- exists l, _ /\ [Axis ?a] = _ => exists [a]
    | |- exists l, _ /\ [Axis ?a; Axis ?b; Prime] = _ => exists [a; b]
    | |- exists l, _ /\ [Axis ?a; Axis ?b; Prime; Axis ?c; Prime; Prime] = _ => exists [a; b; c]
    end; (split; [|reflexivity]); cbn; try exact I; try split; discriminate.
Qed.

(** ** Orthogonal matrices *)
Local Notation mat := (nat -> nat -> K).
Lemma mul_3 (A B : mat) i j : mul 3 A B i j = (A i 0%nat * B 0%nat j + A i 1%nat * B 1%nat j + A i 2%nat * B 2%nat j)%cr.
Proof. unfold mul. cbn [sum]. ring. Qed.
Lemma mul_ext (A A' B B' : mat) : mat_eq 3 A A' -> mat_eq 3 B B' -> mat_eq 3 (mul 3 A B) (mul 3 A' B').
Proof. intros E F i j Hi Hj. rewrite !mul_3, !E, !F by lia. reflexivity. Qed.
Lemma mul_assoc (A B C : mat) : mat_eq 3 (mul 3 (mul 3 A B) C) (mul 3 A (mul 3 B C)).
Proof. intros i j Hi Hj. rewrite !mul_3. ring. Qed.
Lemma mul_unit_l (A : mat) : mat_eq 3 (mul 3 unit_mat A) A.
Proof. intros i j Hi Hj. rewrite mul_3. cases3 Hi i; cbn; ring. Qed.
Lemma mul_unit_r (A : mat) : mat_eq 3 (mul 3 A unit_mat) A.
Proof. intros i j Hi Hj. rewrite mul_3. cases3 Hj j; cbn; ring. Qed.
Lemma transpose_mul (A B : mat) : mat_eq 3 (transpose (mul 3 A B)) (mul 3 (transpose B) (transpose A)).
Proof. intros i j Hi Hj. unfold transpose. rewrite !mul_3. ring. Qed.
Lemma mat_trans (A B C : mat) : mat_eq 3 A B -> mat_eq 3 B C -> mat_eq 3 A C.
Proof. intros E F i j Hi Hj. rewrite E, F by assumption. reflexivity. Qed.
Lemma mat_sym (A B : mat) : mat_eq 3 A B -> mat_eq 3 B A.
Proof. intros E i j Hi Hj. symmetry. apply E; assumption. Qed.
Lemma mat_refl (A : mat) : mat_eq 3 A A. Proof. intros i j _ _. reflexivity. Qed.
Lemma sandwich (A B C D : mat) : mat_eq 3 (mul 3 B C) unit_mat -> mat_eq 3 (mul 3 A D) unit_mat -> mat_eq 3 (mul 3 (mul 3 A B) (mul 3 C D)) unit_mat.
Proof.
  intros E F. apply mat_trans with (mul 3 A (mul 3 (mul 3 B C) D)).
  - eapply mat_trans; [apply mul_assoc|]. apply mul_ext; [apply mat_refl|]. apply mat_sym, mul_assoc.
  - apply mat_trans with (mul 3 A D); [|exact F]. apply mul_ext; [apply mat_refl|]. eapply mat_trans; [apply mul_ext; [exact E|apply mat_refl]|apply mul_unit_l].
Qed.
Lemma orthogonal_mul (A B : mat) : orthogonal 3 A -> orthogonal 3 B -> orthogonal 3 (mul 3 A B).
Proof.
  intros [A1 A2] [B1 B2]. split.
  - eapply mat_trans; [apply mul_ext; [apply transpose_mul|apply mat_refl]|]. apply sandwich; assumption.
  - eapply mat_trans; [apply mul_ext; [apply mat_refl|apply transpose_mul]|]. apply sandwich; assumption.
Qed.
Lemma orthogonal_ext (A B : mat) : mat_eq 3 A B -> orthogonal 3 A -> orthogonal 3 B.
Proof.
  intros E [A1 A2]. assert (mat_eq 3 (transpose B) (transpose A)) as F by (intros i j Hi Hj; symmetry; apply E; assumption).
  apply mat_sym in E. split; (eapply mat_trans; [apply mul_ext|]); eauto.
Qed.
Lemma elementary_orthogonal a (c s : K) : (c * c + s * s = 1)%cr -> orthogonal 3 (elementary a (c, s)).
Proof.
  intros E. assert (c * c = 1 - s * s)%cr as F by (rewrite <- E; ring).
  split; intros i j Hi Hj; unfold transpose; rewrite mul_3; destruct a; cases3 Hi i; cases3 Hj j; cbn; ring [F].
Qed.
Lemma unit_orthogonal : orthogonal 3 (unit_mat : mat).
Proof. split; intros i j Hi Hj; unfold transpose; rewrite mul_3; cases3 Hi i; cases3 Hj j; cbn; ring. Qed.
Lemma rotations_orthogonal (l : list (ax3 * (K * K))) : Forall (fun p => on_circle (snd p)) l -> orthogonal 3 (rotations l).
Proof.
  induction 1 as [|[a [c s]] l U _ IH]; cbn [rotations]; [apply unit_orthogonal|]. apply orthogonal_mul; [|exact IH]. apply elementary_orthogonal, U.
Qed.
Lemma det3_ext (A B : mat) : mat_eq 3 A B -> det3 A = det3 B.
Proof. intros E. unfold det3. rewrite !E by lia. reflexivity. Qed.
Lemma det3_mul (A B : mat) : det3 (mul 3 A B) = (det3 A * det3 B)%cr.
Proof. unfold det3. rewrite !mul_3. ring. Qed.
Lemma elementary_det a (c s : K) : (c * c + s * s = 1)%cr -> det3 (elementary a (c, s)) = 1%cr.
Proof. intros E. assert (c * c = 1 - s * s)%cr as F by (rewrite <- E; ring). destruct a; unfold det3; cbn; ring [F]. Qed.
Lemma rotations_det (l : list (ax3 * (K * K))) : Forall (fun p => on_circle (snd p)) l -> det3 (rotations l : mat) = 1%cr.
Proof.
  induction 1 as [|[a [c s]] l U _ IH]; cbn [rotations]. { unfold det3; cbn; ring. } rewrite det3_mul, IH, elementary_det by exact U. ring.
Qed.

(** ** The operator *)
Section Make.
Context {A : Type} (cs : A -> K * K).
Lemma make3_intrinsic conv l a1 a2 a3 : convention l -> map upper conv = intrinsic l ->
  make3 cs conv a1 a2 a3 = matrix3 (intrinsic l) (cs a1) (cs a2) (cs a3).
Proof. intros C E. unfold make3. rewrite E. destruct l as [|a [|b [|c [|]]]]; cbn in C; try tauto; reflexivity. Qed.
Lemma make3_extrinsic2 conv a b a1 a2 a3 : map upper conv = [Axis a; Axis b] ->
  make3 cs conv a1 a2 a3 = matrix3 (intrinsic [b; a]) (cs a2) (cs a1) (cs a3).
Proof. intros E. unfold make3. rewrite E. reflexivity. Qed.
Lemma make3_extrinsic3 conv a b c a1 a2 a3 : map upper conv = [Axis a; Axis b; Axis c] ->
  make3 cs conv a1 a2 a3 = matrix3 (intrinsic [c; b; a]) (cs a3) (cs a2) (cs a1).
Proof. intros E. unfold make3. rewrite E. reflexivity. Qed.
Lemma convention_rev l : convention l -> convention (rev l).
Proof. destruct l as [|a [|b [|c [|]]]]; cbn; try tauto; intuition congruence. Qed.
Lemma make3_only conv a1 a2 a3 m : make3 cs conv a1 a2 a3 = Ok m -> exists l, convention l /\ (map upper conv = intrinsic l \/ map upper conv = extrinsic l).
Proof.
  unfold make3. set (u := map upper conv). destruct (existsb _ u); [discriminate|].
  assert (forall b1 b2 b3, matrix3 u (cs b1) (cs b2) (cs b3) = Ok m -> exists l, convention l /\ (u = intrinsic l \/ u = extrinsic l)) as D.
  { intros b1 b2 b3 E. apply matrix3_only in E. destruct E as (l & C & E). eauto. }
  destruct (length (filter is_axis u)) as [|[|[|[|]]]] eqn:N; try apply D.
  - destruct u as [|l1 [|l2 [|]]] eqn:U; try apply D. intros E. apply matrix3_only in E. destruct E as (l & C & E).
    destruct l as [|a [|b [|c [|]]]]; cbn in C, E; try discriminate; try tauto. injection E as -> ->. exists [b; a]. cbn. split; [congruence|right; reflexivity].
  - destruct u as [|l1 [|l2 [|l3 [|]]]] eqn:U; try apply D. intros E. apply matrix3_only in E. destruct E as (l & C & E).
    destruct l as [|a [|b [|c [|]]]]; cbn in C, E; try discriminate; try tauto. injection E as -> -> ->. exists [c; b; a]. cbn. split; [intuition congruence|right; reflexivity].
Qed.
End Make.

(** ** Rotations of the plane *)
Lemma rollaxis_iter (m : list nat -> K) l r : Nat.iter (length l) rollaxis m (l ++ r) = m (r ++ l).
Proof.
  revert m r. induction l as [|k l IH]; intros m r; [cbn; rewrite app_nil_r; reflexivity|]. cbn [length]. 
  cbn [Nat.iter nat_rect app]. unfold rollaxis at 1.
  change (nat_rect _ m (fun _ => rollaxis) (length l)) with (Nat.iter (length l) rollaxis m). rewrite <- app_assoc, IH, <- app_assoc. reflexivity.
Qed.
Lemma plane_rows (cs : K * K) i j : i < 2 -> j < 2 ->
  (0 + elementary Z cs 0%nat i * elementary Z cs 0%nat j + elementary Z cs 1%nat i * elementary Z cs 1%nat j)%cr
  = mul 3 (transpose (elementary Z cs)) (elementary Z cs) i j.
Proof.
  intros Hi Hj. rewrite mul_3. unfold transpose. destruct cs as [c s].
  assert (i = 0 \/ i = 1) as [-> | ->] by lia; assert (j = 0 \/ j = 1) as [-> | ->] by lia; cbn; ring.
Qed.
Lemma plane_columns (cs : K * K) i j : i < 2 -> j < 2 ->
  (0 + elementary Z cs i 0%nat * elementary Z cs j 0%nat + elementary Z cs i 1%nat * elementary Z cs j 1%nat)%cr
  = mul 3 (elementary Z cs) (transpose (elementary Z cs)) i j.
Proof.
  intros Hi Hj. rewrite mul_3. unfold transpose. destruct cs as [c s].
  assert (i = 0 \/ i = 1) as [-> | ->] by lia; assert (j = 0 \/ j = 1) as [-> | ->] by lia; cbn; ring.
Qed.
End Proofs.
