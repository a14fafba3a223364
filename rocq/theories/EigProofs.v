From Coq Require Import List Arith String Lia QArith Qcanon.
From Verif Require Import Base Algebra Ofield EigModel EigSpec.
Import ListNotations.
Close Scope Qc_scope. Close Scope Q_scope.
Set Implicit Arguments. Unset Strict Implicit.

Section Facts.
Context {K : ofield}.
Add Ring KringEig : (rth K).
Local Open Scope cr_scope.
Implicit Types (v : nat -> nat -> K) (w x y c : nat -> K).

(** the coefficient of x on the eigenvector l *)
Definition coef n v x (l : nat) : K := dot n (fun i => v i l) x.
Lemma direct_coef n k v w x i : direct n k v w x i = sum k (fun l => v i l * (w l * coef n v x l)).
Proof. reflexivity. Qed.
Lemma coef_column n k v a b : orthonormal n k v -> (a < k)%nat -> (b < k)%nat -> coef n v (fun i => v i b) a = if Nat.eqb a b then 1 else 0.
Proof. intros O A B. apply O; assumption. Qed.
Lemma direct_eigen n k v w l i : orthonormal n k v -> (l < k)%nat -> direct n k v w (fun i => v i l) i = w l * v i l.
Proof.
  intros O L. rewrite direct_coef. rewrite (sum_single _ _ l); [|exact L|].
  - rewrite (coef_column O L L), Nat.eqb_refl. ring.
  - intros a A N. rewrite (coef_column O A L). apply Nat.eqb_neq in N. rewrite N. ring.
Qed.
Lemma direct_orthogonal n k v w x i : (forall l, (l < k)%nat -> dot n (fun i => v i l) x = 0) -> direct n k v w x i = 0.
Proof. intros H. rewrite direct_coef. apply sum_zero. intros l L. unfold coef. rewrite (H l L). ring. Qed.
Lemma dot_direct n k v w x y : dot n y (direct n k v w x) = sum k (fun l => w l * (coef n v y l * coef n v x l)).
Proof.
  unfold dot at 1. rewrite (sum_ext _ _ (fun i => sum k (fun l => y i * (v i l * (w l * coef n v x l))))) by (intros i _; rewrite direct_coef, <- sum_mul_l; reflexivity).
  rewrite sum_swap. apply sum_ext. intros l _. rewrite (sum_ext _ _ (fun i => (v i l * y i) * (w l * coef n v x l))) by (intros i _; ring).
  rewrite sum_mul_r. unfold coef at 2, dot. ring.
Qed.
Lemma dot_comm n x y : dot n x y = dot n y x.
Proof. apply sum_ext. intros i _. ring. Qed.
Lemma direct_symmetric n k v w x y : dot n y (direct n k v w x) = dot n (direct n k v w y) x.
Proof. rewrite (dot_comm n (direct n k v w y) x), !dot_direct. apply sum_ext. intros l _. ring. Qed.
Lemma coef_basis n v j l : (j < n)%nat -> coef n v (basis j) l = v j l.
Proof.
  intros J. unfold coef, dot. rewrite (sum_single _ _ j); [|exact J|].
  - unfold basis. rewrite Nat.eqb_refl. ring.
  - intros i _ N. unfold basis. apply Nat.eqb_neq in N. rewrite N. ring.
Qed.
Lemma trace_direct n k v w : orthonormal n k v -> trace_of n (direct n k v w) = trace k w.
Proof.
  intros O. unfold trace_of, trace. rewrite (sum_ext _ _ (fun j => sum k (fun l => w l * (v j l * v j l)))).
  - rewrite sum_swap. apply sum_ext. intros l L. rewrite sum_mul_l. pose proof (O l l L L) as E. unfold dot in E. rewrite E, Nat.eqb_refl. ring.
  - intros j J. rewrite direct_coef. apply sum_ext. intros l L. rewrite (coef_basis v l J). ring.
Qed.

(** ** The determinant *)
Lemma mul_zero (a b : K) : a * b = 0 -> a = 0 \/ b = 0.
Proof.
  intros E. destruct (eq_dec a 0) as [A|A]; [left; exact A|right]. replace b with (inv a * (a * b)) by (replace (inv a * (a * b)) with (a * inv a * b) by ring; rewrite (inv_ok K a A); ring). rewrite E. ring.
Qed.
Lemma prod_zero k w : (1 : K) <> 0 -> prod k w = 0 <-> exists l, (l < k)%nat /\ w l = 0.
Proof.
  intros One. induction k as [|k IH]; cbn [prod]; [split; [intros E; contradiction|intros (l & L & _); lia]|]. split.
  - intros E. apply mul_zero in E. destruct E as [E|E]; [apply IH in E; destruct E as (l & L & H); exists l; split; [lia|exact H]|exists k; split; [lia|exact E]].
  - intros (l & L & H). destruct (Nat.eq_dec l k) as [->|N]; [rewrite H; ring|]. replace (prod k w) with (0 : K) by (symmetry; apply IH; exists l; split; [lia|exact H]). ring.
Qed.
(** the coefficients of an image *)
Lemma coef_direct n k v w x l : orthonormal n k v -> (l < k)%nat -> coef n v (direct n k v w x) l = w l * coef n v x l.
Proof.
  intros O L. unfold coef at 1. rewrite dot_direct. rewrite (sum_single _ _ l); [|exact L|].
  - rewrite (coef_column O L L), Nat.eqb_refl. ring.
  - intros a A N. rewrite (coef_column O A L). apply Nat.eqb_neq in N. rewrite N. ring.
Qed.
Lemma expand n k v x : orthonormal n k v -> complete n k v -> forall i, (i < n)%nat -> x i = sum k (fun l => v i l * coef n v x l).
Proof.
  intros O C i I. destruct (C x) as [c H]. rewrite (H i I). apply sum_ext. intros l L. f_equal. unfold coef, dot.
  rewrite (sum_ext _ _ (fun j => sum k (fun m => (v j l * v j m) * c m))) by (intros j J; rewrite (H j J), <- sum_mul_l; apply sum_ext; intros m _; ring).
  rewrite sum_swap. rewrite (sum_ext _ _ (fun m => (if Nat.eqb l m then 1 else 0) * c m)) by (intros m M; rewrite sum_mul_r; f_equal; apply (O l m L M)).
  rewrite (sum_single _ _ l); [rewrite Nat.eqb_refl; ring|exact L|]. intros m _ N. apply Nat.neq_sym, Nat.eqb_neq in N. rewrite N. ring.
Qed.
Lemma det_singular n k v w : (1 : K) <> 0 -> orthonormal n k v -> complete n k v -> det k w = 0 <-> singular n (direct n k v w).
Proof.
  intros One O C. unfold det. rewrite (prod_zero k w One). split.
  - intros (l & L & Z). exists (fun i => v i l). split.
    + (* a unit vector is not zero *)
      assert (forall m, sum m (fun i => v i l * v i l) <> 0 -> exists i, (i < m)%nat /\ v i l <> 0) as F.
      { induction m as [|m IH]; cbn [sum]; [congruence|]. intros E. destruct (eq_dec (v m l) 0) as [A|A]; [|exists m; split; [lia|exact A]].
        destruct IH as (i & I & H); [intros B; apply E; rewrite B, A; ring|]. exists i. split; [lia|exact H]. }
      apply F. pose proof (O l l L L) as E. unfold dot in E. rewrite E, Nat.eqb_refl. exact One.
    + intros i I. rewrite (direct_eigen w i O L), Z. ring.
  - intros (x & (i & I & N) & A). destruct (Nat.eq_dec (List.length (filter (fun l => if eqb (w l) 0 then true else false) (seq 0 k))) 0) as [E|E].
    + exfalso. apply N. rewrite (expand x O C I). apply sum_zero. intros l L. replace (coef n v x l) with (0 : K); [ring|].
      assert (w l * coef n v x l = 0) as P by (rewrite <- (coef_direct w x O L); apply sum_zero; intros j J; rewrite (A j J); ring).
      apply mul_zero in P. destruct P as [P|P]; [|symmetry; exact P]. exfalso. assert (In l (filter (fun l => if eqb (w l) 0 then true else false) (seq 0 k))) as Q.
      { apply filter_In. split; [apply in_seq; lia|]. replace (eqb (w l) 0) with true by (symmetry; apply eqb_ok; exact P). reflexivity. }
      destruct (filter _ _); [destruct Q|discriminate E].
    + destruct (filter (fun l => if eqb (w l) 0 then true else false) (seq 0 k)) as [|l t] eqn:F; [cbn in E; congruence|]. assert (In l (l :: t)) as Q by (left; reflexivity). rewrite <- F in Q.
      apply filter_In in Q. destruct Q as [Q R]. apply in_seq in Q. exists l. split; [lia|]. destruct (eqb (w l) 0) eqn:Z; [apply eqb_ok; exact Z|discriminate R].
Qed.

(** ** The quadratic form *)
Lemma sum_le m (f g : nat -> K) : (forall l, (l < m)%nat -> le (f l) (g l)) -> le (sum m f) (sum m g).
Proof.
  induction m as [|m IH]; intros H; cbn [sum]; [apply le_refl|]. apply le_sub. replace (sum m g + g m - (sum m f + f m)) with ((sum m g - sum m f) + (g m - f m)) by ring.
  apply le_add_pos; apply (proj1 (le_sub _ _)); [apply IH; intros l L; apply H; lia|apply H; lia].
Qed.
Lemma square_pos (a : K) : le 0 (a * a).
Proof.
  destruct (le_total 0 a) as [A|A]; [apply le_mul_pos; exact A|]. replace (a * a) with ((0 - a) * (0 - a)) by ring. apply le_mul_pos; apply (proj1 (le_sub _ _)); exact A.
Qed.
Lemma quadratic_bounds n k v w x (lo hi : K) : orthonormal n k v -> complete n k v -> (forall l, (l < k)%nat -> le lo (w l) /\ le (w l) hi) ->
  le (lo * dot n x x) (dot n x (direct n k v w x)) /\ le (dot n x (direct n k v w x)) (hi * dot n x x).
Proof.
  intros O C B. assert (dot n x x = sum k (fun l => coef n v x l * coef n v x l)) as P.
  { unfold dot. rewrite (sum_ext _ _ (fun i => sum k (fun l => (v i l * x i) * coef n v x l))).
    - rewrite sum_swap. apply sum_ext. intros l _. rewrite sum_mul_r. reflexivity.
    - intros i I. rewrite (expand x O C I) at 2. rewrite <- sum_mul_l. apply sum_ext. intros l _. ring. }
  rewrite P, dot_direct, <- !sum_mul_l. split; apply sum_le; intros l L; destruct (B l L) as [B1 B2]; apply le_sub.
  - replace (w l * (coef n v x l * coef n v x l) - lo * (coef n v x l * coef n v x l)) with ((w l - lo) * (coef n v x l * coef n v x l)) by ring. apply le_mul_pos; [apply (proj1 (le_sub _ _)); exact B1|apply square_pos].
  - replace (hi * (coef n v x l * coef n v x l) - w l * (coef n v x l * coef n v x l)) with ((hi - w l) * (coef n v x l * coef n v x l)) by ring. apply le_mul_pos; [apply (proj1 (le_sub _ _)); exact B2|apply square_pos].
Qed.

(** ** The condition number *)
Lemma maximum_ok (l : list K) a : In (maximum a l) (a :: l) /\ forall b, In b (a :: l) -> le b (maximum a l).
Proof.
  revert a. induction l as [|c l IH]; intros a; cbn [maximum]; [split; [left; reflexivity|intros b [<-|[]]; apply le_refl]|].
  destruct (IH (if ltb a c then c else a)) as [I M]. pose proof (ltb_spec a c) as S. destruct (ltb a c).
  - split; [destruct I as [I|I]; [right; left; exact I|right; right; exact I]|]. intros b [<-|[<-|B]]; [apply le_trans with c; [apply lt_asym, S|apply M; left; reflexivity]|apply M; left; reflexivity|apply M; right; exact B].
  - split; [destruct I as [I|I]; [left; exact I|right; right; exact I]|]. intros b [<-|[<-|B]]; [apply M; left; reflexivity|apply le_trans with a; [exact S|apply M; left; reflexivity]|apply M; right; exact B].
Qed.
Lemma minimum_ok (l : list K) a : In (minimum a l) (a :: l) /\ forall b, In b (a :: l) -> le (minimum a l) b.
Proof.
  revert a. induction l as [|c l IH]; intros a; cbn [minimum]; [split; [left; reflexivity|intros b [<-|[]]; apply le_refl]|].
  destruct (IH (if ltb c a then c else a)) as [I M]. pose proof (ltb_spec c a) as S. destruct (ltb c a).
  - split; [destruct I as [I|I]; [right; left; exact I|right; right; exact I]|]. intros b [<-|[<-|B]]; [apply le_trans with c; [apply M; left; reflexivity|apply lt_asym, S]|apply M; left; reflexivity|apply M; right; exact B].
  - split; [destruct I as [I|I]; [left; exact I|right; right; exact I]|]. intros b [<-|[<-|B]]; [apply M; left; reflexivity|apply le_trans with a; [apply M; left; reflexivity|exact S]|apply M; right; exact B].
Qed.
Lemma nonzero_in k w a : In a (nonzero k w) <-> a <> 0 /\ exists l, (l < k)%nat /\ w l = a.
Proof.
  unfold nonzero. rewrite filter_In, in_map_iff. pose proof (eqb_spec a 0) as E. destruct (eqb a 0); cbn [negb]; split.
  - intros [_ F]. discriminate F.
  - intros [N _]. contradiction.
  - intros [(l & H & L) _]. apply in_seq in L. split; [exact E|]. exists l. split; [lia|exact H].
  - intros [_ (l & L & H)]. split; [|reflexivity]. exists l. split; [exact H|apply in_seq; lia].
Qed.
Lemma cond_nonneg k w : (forall l, (l < k)%nat -> le 0 (w l)) -> (exists l, (l < k)%nat /\ w l <> 0) -> exists c : K, cond k w = Ok c /\ condition_number k w c.
Proof.
  intros P (m & M & N). unfold cond. destruct (nonzero k w) as [|a l] eqn:E.
  - exfalso. assert (In (w m) (nonzero k w)) as I by (apply nonzero_in; split; [exact N|exists m; split; [exact M|reflexivity]]). rewrite E in I. destruct I.
  - eexists. split; [reflexivity|]. destruct (maximum_ok l a) as [I1 H1], (minimum_ok l a) as [I2 H2]. rewrite <- E in I1, I2, H1, H2. set (mx := maximum a l) in *. set (mn := minimum a l) in *.
    apply nonzero_in in I1. destruct I1 as (N1 & i & L1 & W1). apply nonzero_in in I2. destruct I2 as (N2 & j & L2 & W2).
    assert (forall q, (q < k)%nat -> abs (w q) = w q) as A by (intros q Q; unfold abs; specialize (P q Q); unfold le in P; rewrite P; reflexivity).
    exists i, j. rewrite (A i L1), (A j L2), W1, W2. split; [exact L1|]. split; [exact L2|]. split; [exact N1|]. split; [exact N2|]. split.
    + intros q Q NQ. rewrite (A q Q). assert (In (w q) (nonzero k w)) as I by (apply nonzero_in; split; [exact NQ|exists q; split; [exact Q|reflexivity]]). split; [apply H1, I|apply H2, I].
    + unfold div. replace (mx * inv mn * mn) with (mx * (mn * inv mn)) by ring. rewrite (inv_ok K mn N2). ring.
Qed.
End Facts.

(** Example: the eigenvectors (3/5, 4/5) and (-4/5, 3/5) *)
Definition q (a : Z) (b : positive) : Qf := Q2Qc (a # b).
Definition rotation (i l : nat) : Qf := match i, l with O, O => q 3 5 | O, _ => q (-4) 5 | _, O => q 4 5 | _, _ => q 3 5 end.
Lemma Qc_ext (a b : Qc) : (this a == this b)%Q -> a = b.
Proof. apply Qc_is_canon. Qed.
Lemma rotation_orthonormal : orthonormal (K := Qf) 2 2 rotation.
Proof. intros [|[|a]] [|[|b]] A B; try lia; apply Qc_ext; vm_compute; reflexivity. Qed.
Lemma rotation_complete : complete (K := Qf) 2 2 rotation.
Proof.
  intros x. exists (fun l => match l with O => radd (rmul (q 3 5) (x 0%nat)) (rmul (q 4 5) (x 1%nat)) | _ => radd (rmul (q (-4) 5) (x 0%nat)) (rmul (q 3 5) (x 1%nat)) end).
  assert (forall a b : Qc, a = (Q2Qc (3#5) * (Q2Qc (3#5) * a + Q2Qc (4#5) * b) + Q2Qc (-4#5) * (Q2Qc (-4#5) * a + Q2Qc (3#5) * b))%Qc) as A.
  { intros a b. transitivity ((Q2Qc (3#5) * Q2Qc (3#5) + Q2Qc (-4#5) * Q2Qc (-4#5)) * a + (Q2Qc (3#5) * Q2Qc (4#5) + Q2Qc (-4#5) * Q2Qc (3#5)) * b)%Qc; [|ring].
    replace (Q2Qc (3#5) * Q2Qc (3#5) + Q2Qc (-4#5) * Q2Qc (-4#5))%Qc with 1%Qc by (apply Qc_is_canon; vm_compute; reflexivity).
    replace (Q2Qc (3#5) * Q2Qc (4#5) + Q2Qc (-4#5) * Q2Qc (3#5))%Qc with 0%Qc by (apply Qc_is_canon; vm_compute; reflexivity). ring. }
  assert (forall a b : Qc, b = (Q2Qc (4#5) * (Q2Qc (3#5) * a + Q2Qc (4#5) * b) + Q2Qc (3#5) * (Q2Qc (-4#5) * a + Q2Qc (3#5) * b))%Qc) as B.
  { intros a b. transitivity ((Q2Qc (4#5) * Q2Qc (3#5) + Q2Qc (3#5) * Q2Qc (-4#5)) * a + (Q2Qc (4#5) * Q2Qc (4#5) + Q2Qc (3#5) * Q2Qc (3#5)) * b)%Qc; [|ring].
    replace (Q2Qc (4#5) * Q2Qc (3#5) + Q2Qc (3#5) * Q2Qc (-4#5))%Qc with 0%Qc by (apply Qc_is_canon; vm_compute; reflexivity).
    replace (Q2Qc (4#5) * Q2Qc (4#5) + Q2Qc (3#5) * Q2Qc (3#5))%Qc with 1%Qc by (apply Qc_is_canon; vm_compute; reflexivity). ring. }
  intros [|[|i]] I; [| |lia].
  - transitivity (0 + (Q2Qc (3#5) * (Q2Qc (3#5) * x 0%nat + Q2Qc (4#5) * x 1%nat)) + Q2Qc (-4#5) * (Q2Qc (-4#5) * x 0%nat + Q2Qc (3#5) * x 1%nat))%Qc; [rewrite Qcplus_0_l; apply A|reflexivity].
  - transitivity (0 + (Q2Qc (4#5) * (Q2Qc (3#5) * x 0%nat + Q2Qc (4#5) * x 1%nat)) + Q2Qc (3#5) * (Q2Qc (-4#5) * x 0%nat + Q2Qc (3#5) * x 1%nat))%Qc; [rewrite Qcplus_0_l; apply B|reflexivity].
Qed.
Definition values (a b : Z) (l : nat) : Qf := match l with O => q a 1 | _ => q b 1 end.
