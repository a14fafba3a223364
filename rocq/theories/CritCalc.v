(** Proofs for C42: gradients, in an ordered field. *)
From Verif Require Import Base Algebra Ofield CritModel CritSpec CritProofs CritSums.

Section Order.
Context {K : ofield}.
Add Ring KringCc : (rth K).
Local Open Scope cr_scope.
Implicit Types a b c d t u v : K.

Lemma le_add a b c d : le a b -> le c d -> le (a + c) (b + d).
Proof. intros H1 H2. apply le_sub. apply (proj1 (le_sub _ _)) in H1. apply (proj1 (le_sub _ _)) in H2. replace (b + d - (a + c)) with ((b - a) + (d - c)) by ring. apply le_add_pos; assumption. Qed.
Lemma le_mul_l c a b : le 0 c -> le a b -> le (c * a) (c * b).
Proof. intros H1 H2. apply le_sub. apply (proj1 (le_sub _ _)) in H2. replace (c * b - c * a) with (c * (b - a)) by ring. apply le_mul_pos; assumption. Qed.
Lemma le_mul_r c a b : le 0 c -> le a b -> le (a * c) (b * c).
Proof. intros H1 H2. rewrite (rmul_comm a), (rmul_comm b). apply le_mul_l; assumption. Qed.
Lemma le_mul_both a b c d : le 0 a -> le 0 d -> le a b -> le c d -> le (a * c) (b * d).
Proof. intros A B H1 H2. apply le_trans with (a * d); [apply le_mul_l|apply le_mul_r]; assumption. Qed.
Lemma le_opp a b : le a b -> le (- b) (- a).
Proof. intros H. apply le_sub. apply (proj1 (le_sub _ _)) in H. replace (- a - - b) with (b - a) by ring. exact H. Qed.
Lemma opp_nonneg a : le a 0 -> le 0 (- a).
Proof. intros H. apply le_opp in H. replace (- (0)) with (0 : K) in H by ring. exact H. Qed.

Lemma abs_cases t : le 0 t /\ abs t = t \/ lt t 0 /\ abs t = - t.
Proof. unfold abs. destruct (ltb t 0) eqn:E; [right; split; [exact E|reflexivity]|left; split; [exact E|reflexivity]]. Qed.
Lemma abs_nonneg t : le 0 (abs t).
Proof. destruct (abs_cases t) as [[H ->]|[H ->]]; [exact H|apply lt_asym, lt_opp, H]. Qed.
Lemma abs_ub t : le t (abs t).
Proof. destruct (abs_cases t) as [[H ->]|[H ->]]; [apply le_refl|]. apply le_trans with 0; [apply lt_asym, H|apply lt_asym, lt_opp, H]. Qed.
Lemma abs_ub' t : le (- t) (abs t).
Proof. destruct (abs_cases t) as [[H ->]|[H ->]]; [|apply le_refl]. apply le_trans with 0; [|exact H]. apply le_opp in H. replace (- (0)) with (0 : K) in H by ring. exact H. Qed.
Lemma abs_of_le t b : le t b -> le (- t) b -> le (abs t) b.
Proof. intros H1 H2. destruct (abs_cases t) as [[_ ->]|[_ ->]]; assumption. Qed.
Lemma abs_add t u : le (abs (t + u)) (abs t + abs u).
Proof. apply abs_of_le; [apply le_add; apply abs_ub|]. replace (- (t + u)) with (- t + - u) by ring. apply le_add; apply abs_ub'. Qed.
Lemma abs_opp t : abs (- t) = abs t.
Proof.
  apply le_antisym; apply abs_of_le; try apply abs_ub; try apply abs_ub'.
  - replace (- - t) with t by ring. apply abs_ub.
  - replace t with (- - t) at 1 by ring. apply abs_ub'.
Qed.
Lemma abs_sub t u : le (abs (t - u)) (abs t + abs u).
Proof. replace (t - u) with (t + - u) by ring. rewrite <- (abs_opp u). apply abs_add. Qed.
Lemma abs_pos_eq t : le 0 t -> abs t = t.
Proof. intros H. apply le_antisym; [|apply abs_ub]. apply abs_of_le; [apply le_refl|]. apply le_trans with 0; [|exact H]. apply le_opp in H. replace (- (0)) with (0 : K) in H by ring. exact H. Qed.
Lemma abs_0 : abs 0 = (0 : K). Proof. apply abs_pos_eq, le_refl. Qed.
Lemma abs_mul t u : abs (t * u) = abs t * abs u.
Proof.
  destruct (abs_cases t) as [[Ht ->]|[Ht ->]], (abs_cases u) as [[Hu ->]|[Hu ->]].
  - apply abs_pos_eq, le_mul_pos; assumption.
  - rewrite <- abs_opp. replace (- (t * u)) with (t * - u) by ring. apply abs_pos_eq, le_mul_pos; [assumption|apply lt_asym, lt_opp, Hu].
  - rewrite <- abs_opp. replace (- (t * u)) with (- t * u) by ring. apply abs_pos_eq, le_mul_pos; [apply lt_asym, lt_opp, Ht|assumption].
  - replace (t * u) with (- t * - u) by ring. apply abs_pos_eq, le_mul_pos; apply lt_asym, lt_opp; assumption.
Qed.
Lemma abs_sq t : abs t * abs t = t * t.
Proof. destruct (abs_cases t) as [[_ ->]|[_ ->]]; ring. Qed.
Lemma sum_le n (f g : nat -> K) : (forall i, (i < n)%nat -> le (f i) (g i)) -> le (sum n f) (sum n g).
Proof. induction n as [|n IH]; intros H; cbn [sum]; [apply le_refl|]. apply le_add; [apply IH; intros; apply H; lia|apply H; lia]. Qed.
Lemma abs_sum n (f : nat -> K) : le (abs (sum n f)) (sum n (fun i => abs (f i))).
Proof. induction n as [|n IH]; cbn [sum]; [rewrite abs_0; apply le_refl|]. eapply le_trans; [apply abs_add|]. apply le_add; [exact IH|apply le_refl]. Qed.
Lemma sum_item n (f : nat -> K) i : (forall i, (i < n)%nat -> le 0 (f i)) -> (i < n)%nat -> le (f i) (sum n f).
Proof.
  intros H Hi. induction n as [|n IH]; [lia|]. cbn [sum]. destruct (Nat.eq_dec i n) as [->|].
  - replace (f n) with (0 + f n) at 1 by ring. apply le_add; [|apply le_refl]. apply sum_nonneg. intros; apply H; lia.
  - replace (f i) with (f i + 0) by ring. apply le_add; [apply IH; [intros; apply H; lia|lia]|apply H; lia].
Qed.
Lemma sq_sum2 a b : le ((a + b) * (a + b)) ((1 + 1) * (a * a) + (1 + 1) * (b * b)).
Proof. apply le_sub. replace ((1 + 1) * (a * a) + (1 + 1) * (b * b) - (a + b) * (a + b)) with ((a - b) * (a - b)) by ring. apply square_nonneg. Qed.
Lemma two_nonneg : le 0 (1 + 1 : K).
Proof. apply le_add_pos; (replace (1 : K) with (1 * 1 : K) by ring; apply square_nonneg). Qed.
Lemma one_nonneg : le 0 (1 : K).
Proof. replace (1 : K) with (1 * 1 : K) by ring. apply square_nonneg. Qed.
Lemma one_le_two : le 1 (1 + 1 : K).
Proof. apply le_sub. replace (1 + 1 - 1) with (1 : K) by ring. apply one_nonneg. Qed.
Lemma power_nonneg t p : le 0 t -> le 0 (power t p).
Proof. intros H. induction p as [|p IH]; cbn [power]; [apply one_nonneg|apply le_mul_pos; assumption]. Qed.
Lemma sq_sum n (f : nat -> K) : le (sum n f * sum n f) (power (1 + 1) n * sum n (fun i => f i * f i)).
Proof.
  induction n as [|n IH]; cbn [sum power]; [replace (0 * 0) with (0 : K) by ring; replace (1 * 0) with (0 : K) by ring; apply le_refl|].
  eapply le_trans; [apply sq_sum2|]. replace ((1 + 1) * power (1 + 1) n * (sum n (fun i => f i * f i) + f n * f n)) with ((1 + 1) * (power (1 + 1) n * sum n (fun i => f i * f i)) + (1 + 1) * power (1 + 1) n * (f n * f n)) by ring.
  apply le_add; [apply le_mul_l; [apply two_nonneg|exact IH]|]. apply le_mul_r; [apply square_nonneg|]. replace (1 + 1 : K) with ((1 + 1) * 1 : K) at 1 by ring. apply le_mul_l; [apply two_nonneg|].
  clear. induction n as [|n IH]; cbn [power]; [apply le_refl|]. apply le_trans with (1 * power (1 + 1) n); [replace (1 * power (1 + 1) n) with (power (1 + 1) n : K) by ring; exact IH|]. apply le_mul_r; [apply power_nonneg, two_nonneg|apply one_le_two].
Qed.
Definition minimum a b : K := if ltb a b then a else b.
Lemma minimum_l a b : le (minimum a b) a.
Proof. unfold minimum. destruct (ltb a b) eqn:E; [apply le_refl|exact E]. Qed.
Lemma minimum_r a b : le (minimum a b) b.
Proof. unfold minimum. destruct (ltb a b) eqn:E; [apply lt_asym, E|apply le_refl]. Qed.
Lemma minimum_pos a b : lt 0 a -> lt 0 b -> lt 0 (minimum a b).
Proof. unfold minimum. destruct (ltb a b); auto. Qed.
End Order.

Section Arrays.
Context {K : ofield}.
Add Ring KringCa : (rth K).
Local Open Scope cr_scope.
Notation array := (list K).
Implicit Types x y h g d : array.

Lemma nth_map2 (f : K -> K -> K) x y i : (i < length x)%nat -> (i < length y)%nat -> nth i (map2 f x y) 0 = f (nth i x 0) (nth i y 0).
Proof. revert y i. induction x as [|a x IH]; intros [|b y] [|i] Hx Hy; cbn in *; try lia; auto. apply IH; lia. Qed.
Lemma total_sum x : total x = sum (length x) (fun i => nth i x 0).
Proof. induction x as [|a x IH]; [reflexivity|]. cbn [total length]. rewrite sum_S_l, IH. reflexivity. Qed.
Lemma dot_sum n x y : length x = n -> length y = n -> dot x y = sum n (fun i => nth i x 0 * nth i y 0).
Proof.
  intros Hx Hy. unfold dot. rewrite total_sum, map2_length by congruence. rewrite Hx. apply sum_ext. intros i Hi. apply nth_map2; lia.
Qed.
Lemma array_ext n x y : length x = n -> length y = n -> (forall i, (i < n)%nat -> nth i x 0 = nth i y 0) -> x = y.
Proof. intros Hx Hy H. apply (nth_ext _ _ 0 0); [congruence|]. intros i Hi. apply H. lia. Qed.
Lemma matvec_length m n (O : nat -> nat -> K) x : length (matvec m n O x) = m.
Proof. unfold matvec. rewrite map_length, seq_length. reflexivity. Qed.
Lemma nth_matvec m n (O : nat -> nat -> K) x i : (i < m)%nat -> nth i (matvec m n O x) 0 = sum n (fun j => O i j * nth j x 0).
Proof.
  intros Hi. unfold matvec. rewrite (nth_indep _ 0 (sum n (fun j => O 0%nat j * nth j x 0))) by (rewrite map_length, seq_length; exact Hi). rewrite (map_nth (fun i => sum n (fun j => O i j * nth j x 0))). rewrite seq_nth by exact Hi. reflexivity.
Qed.
Lemma matvec_add m n (O : nat -> nat -> K) x h : length x = n -> length h = n -> matvec m n O (map2 radd x h) = map2 radd (matvec m n O x) (matvec m n O h).
Proof.
  intros Hx Hh. apply (array_ext m); [apply matvec_length|rewrite map2_length; rewrite !matvec_length; reflexivity|]. intros i Hi. rewrite nth_map2 by (rewrite matvec_length; exact Hi). rewrite !nth_matvec by exact Hi. rewrite <- sum_add. apply sum_ext. intros j Hj. rewrite nth_map2 by lia. ring.
Qed.
Lemma nth_scal c x i : nth i (map (fun t : K => c * t) x) 0 = c * nth i x 0.
Proof.
  destruct (Nat.lt_ge_cases i (length x)) as [H|H].
  - rewrite (nth_indep _ 0 (c * 0)) by (rewrite map_length; exact H). rewrite (map_nth (fun t => c * t)). reflexivity.
  - rewrite !nth_overflow by (rewrite ?map_length; lia). ring.
Qed.
Lemma matvec_scal m n (O : nat -> nat -> K) c x : length x = n -> matvec m n O (map (fun t => c * t) x) = map (fun t => c * t) (matvec m n O x).
Proof.
  intros Hx. apply (array_ext m); [apply matvec_length|rewrite map_length; apply matvec_length|]. intros i Hi. rewrite nth_scal, !nth_matvec by exact Hi. rewrite <- sum_mul_l. apply sum_ext. intros j Hj. rewrite nth_scal. ring.
Qed.
Lemma dot_matvec m n (O : nat -> nat -> K) g h : length g = m -> length h = n -> dot g (matvec m n O h) = dot (matvec n m (transposed O) g) h.
Proof.
  intros Hg Hh. rewrite (dot_sum m) by (try apply matvec_length; assumption). rewrite (dot_sum n) by (try apply matvec_length; assumption).
  rewrite (sum_ext m _ (fun i => sum n (fun j => nth i g 0 * (O i j * nth j h 0)))) by (intros i Hi; rewrite nth_matvec, sum_mul_l by exact Hi; reflexivity).
  rewrite sum_swap. apply sum_ext. intros j Hj. rewrite nth_matvec by exact Hj. rewrite <- sum_mul_r. apply sum_ext. intros i Hi. unfold transposed. ring.
Qed.
Lemma dot_nonneg h : le 0 (dot h h).
Proof. rewrite (dot_sum (length h)) by reflexivity. apply sum_nonneg. intros. apply square_nonneg. Qed.
Lemma dot_add_r g x y : length g = length x -> length g = length y -> dot g (map2 radd x y) = dot g x + dot g y.
Proof. intros Hx Hy. rewrite !(dot_sum (length g)) by (rewrite ?map2_length; congruence). rewrite <- sum_add. apply sum_ext. intros i Hi. rewrite nth_map2 by lia. ring. Qed.
Lemma dot_add_l g x y : length g = length x -> length g = length y -> dot (map2 radd x y) g = dot x g + dot y g.
Proof. intros Hx Hy. rewrite !(dot_sum (length g)) by (rewrite ?map2_length; congruence). rewrite <- sum_add. apply sum_ext. intros i Hi. rewrite nth_map2 by lia. ring. Qed.
Lemma dot_comm x y : length x = length y -> dot x y = dot y x.
Proof. intros H. rewrite !(dot_sum (length x)) by congruence. apply sum_ext. intros. ring. Qed.
Lemma dot_scal_l c x y : length x = length y -> dot (map (fun t => c * t) x) y = c * dot x y.
Proof. intros H. rewrite !(dot_sum (length x)) by (rewrite ?map_length; congruence). rewrite <- sum_mul_l. apply sum_ext. intros i Hi. rewrite nth_scal. ring. Qed.
Lemma dot_scal_r c x y : length x = length y -> dot x (map (fun t => c * t) y) = c * dot x y.
Proof. intros H. rewrite !(dot_sum (length x)) by (rewrite ?map_length; congruence). rewrite <- sum_mul_l. apply sum_ext. intros i Hi. rewrite nth_scal. ring. Qed.
Lemma minus_add y h d : length y = length d -> length h = length y -> map2 rsub (map2 radd y h) d = map2 radd (map2 rsub y d) h.
Proof. revert h d. induction y as [|a y IH]; intros [|b h] [|c d] H1 H2; try discriminate; [reflexivity|]. cbn in *. rewrite IH by lia. f_equal. ring. Qed.

(** bounds for matrices *)
Lemma matvec_bound m n (O : nat -> nat -> K) : exists C, le 0 C /\ forall h, length h = n -> le (dot (matvec m n O h) (matvec m n O h)) (C * dot h h).
Proof.
  exists (sum m (fun i => power (1 + 1) n * sum n (fun j => O i j * O i j))). split.
  { apply sum_nonneg. intros i Hi. apply le_mul_pos; [apply power_nonneg, two_nonneg|]. apply sum_nonneg. intros. apply square_nonneg. }
  intros h Hh. rewrite (dot_sum m) by apply matvec_length. rewrite <- sum_mul_r. apply sum_le. intros i Hi. rewrite nth_matvec by exact Hi. eapply le_trans; [apply sq_sum|].
  rewrite <- rmul_assoc. apply le_mul_l; [apply power_nonneg, two_nonneg|]. rewrite <- sum_mul_r. apply sum_le. intros j Hj.
  replace (O i j * nth j h 0 * (O i j * nth j h 0)) with (O i j * O i j * (nth j h 0 * nth j h 0)) by ring. apply le_mul_l; [apply square_nonneg|].
  rewrite (dot_sum n) by exact Hh. apply (sum_item n (fun i => nth i h 0 * nth i h 0) j); [intros; apply square_nonneg|exact Hj].
Qed.
Lemma matvec_small (N1 : (1 : K) <> 0) m n (O : nat -> nat -> K) r : lt 0 r -> exists r', lt 0 r' /\ forall h, length h = n -> Forall (fun t => le (abs t) r') h -> Forall (fun t => le (abs t) r) (matvec m n O h).
Proof.
  intros Hr. set (B := 1 + sum m (fun i => sum n (fun j => abs (O i j)))). assert (HB : lt 0 B). { apply lt_add_pos; [apply lt_0_1, N1|]. apply sum_nonneg. intros. apply sum_nonneg. intros. apply abs_nonneg. }
  exists (div r B). split; [apply div_pos; assumption|]. intros h Hh F. rewrite Forall_forall. intros t Ht. unfold matvec in Ht. apply in_map_iff in Ht. destruct Ht as (i & <- & Hi). apply in_seq in Hi. eapply le_trans; [apply abs_sum|].
  apply le_trans with (sum n (fun j => abs (O i j) * div r B)).
  - apply sum_le. intros j Hj. rewrite abs_mul. apply le_mul_l; [apply abs_nonneg|]. rewrite Forall_forall in F. apply F. apply nth_In. lia.
  - rewrite sum_mul_r. apply le_trans with (B * div r B).
    + apply le_mul_r; [apply lt_asym, div_pos; assumption|]. apply le_trans with (sum m (fun i => sum n (fun j => abs (O i j)))).
      * apply (sum_item m (fun i => sum n (fun j => abs (O i j))) i); [|lia]. intros. apply sum_nonneg. intros. apply abs_nonneg.
      * apply le_sub. unfold B. replace (1 + _ - _) with (1 : K) by ring. apply one_nonneg.
    + rewrite rmul_comm, div_mul; [apply le_refl|]. intros Z. apply (lt_neq _ _ HB). congruence.
Qed.
End Arrays.

Section Gradients.
Context {K : ofield} (N1 : (r1 : K) <> r0).
Add Ring KringCg : (rth K).
Local Open Scope cr_scope.
Notation array := (list K).
Implicit Types x y h g d : array.

(** a function of one variable and its derivative *)
Definition derivative (f f' : K -> K) : Prop := forall t, exists r C, lt 0 r /\ le 0 C /\ forall s, le (abs s) r -> le (abs (f (t + s) - f t - f' t * s)) (C * (s * s)).
Lemma separable (f f' : K -> K) x : derivative f f' -> is_gradient (fun y => total (map f y)) x (map f' x).
Proof.
  intros D. split; [apply map_length|]. induction x as [|t x (r1 & C1 & R1 & P1 & H1)].
  - exists 1, 0. split; [apply lt_0_1, N1|]. split; [apply le_refl|]. intros h Hh _. destruct h; [|discriminate]. cbn. replace (0 - 0 - 0) with (0 : K) by ring. rewrite abs_0. replace (0 * 0) with (0 : K) by ring. apply le_refl.
  - destruct (D t) as (r2 & C2 & R2 & P2 & H2). exists (minimum r1 r2), (C1 + C2). split; [apply minimum_pos; assumption|]. split; [apply le_add_pos; assumption|]. intros [|s h] Hh F; [discriminate|]. inversion F as [|? ? F1 F2]; subst. cbn [length] in Hh.
    specialize (H1 h ltac:(lia)). specialize (H2 s). cbn [map2 map total dot]. unfold dot in *. cbn [map2 total].
    replace (f (t + s) + total (map f (map2 radd x h)) - (f t + total (map f x)) - (f' t * s + total (map2 rmul (map f' x) h))) with ((f (t + s) - f t - f' t * s) + (total (map f (map2 radd x h)) - total (map f x) - total (map2 rmul (map f' x) h))) by ring.
    eapply le_trans; [apply abs_add|]. replace ((C1 + C2) * (s * s + total (map2 rmul h h))) with ((C2 * (s * s) + C1 * total (map2 rmul h h)) + (C1 * (s * s) + C2 * total (map2 rmul h h))) by ring.
    match goal with |- le ?a (?b + ?c) => replace a with (a + 0) by ring end. apply le_add.
    + apply le_add; [apply H2; eapply le_trans; [exact F1|apply minimum_r]|]. apply H1. eapply Forall_impl; [|exact F2]. cbn. intros a Ha. eapply le_trans; [exact Ha|apply minimum_l].
    + apply le_add_pos; (apply le_mul_pos; [assumption|]); [apply square_nonneg|apply dot_nonneg].
Qed.
Lemma gradient_f_ext (f f' : array -> K) x g : (forall y, length y = length x -> f y = f' y) -> is_gradient f x g -> is_gradient f' x g.
Proof.
  intros E [L (r & C & R & P & H)]. split; [exact L|]. exists r, C. split; [exact R|]. split; [exact P|]. intros h Hh F. rewrite <- !E; [apply H; assumption|reflexivity|]. rewrite map2_length; congruence.
Qed.
Lemma gradient_sum (f1 f2 : array -> K) x g1 g2 : is_gradient f1 x g1 -> is_gradient f2 x g2 -> is_gradient (fun y => f1 y + f2 y) x (map2 radd g1 g2).
Proof.
  intros [L1 (r1 & C1 & R1 & P1 & H1)] [L2 (r2 & C2 & R2 & P2 & H2)]. split; [rewrite map2_length; congruence|]. exists (minimum r1 r2), (C1 + C2). split; [apply minimum_pos; assumption|]. split; [apply le_add_pos; assumption|]. intros h Hh F.
  rewrite dot_add_l by congruence. replace (f1 (map2 radd x h) + f2 (map2 radd x h) - (f1 x + f2 x) - (dot g1 h + dot g2 h)) with ((f1 (map2 radd x h) - f1 x - dot g1 h) + (f2 (map2 radd x h) - f2 x - dot g2 h)) by ring.
  eapply le_trans; [apply abs_add|]. replace ((C1 + C2) * dot h h) with (C1 * dot h h + C2 * dot h h) by ring. apply le_add; [apply H1|apply H2]; try exact Hh; (eapply Forall_impl; [|exact F]; cbn; intros a Ha; eapply le_trans; [exact Ha|]); [apply minimum_l|apply minimum_r].
Qed.
Lemma gradient_scal (f : array -> K) x g c : is_gradient f x g -> is_gradient (fun y => c * f y) x (map (fun t => c * t) g).
Proof.
  intros [L (r & C & R & P & H)]. split; [rewrite map_length; exact L|]. exists r, (abs c * C). split; [exact R|]. split; [apply le_mul_pos; [apply abs_nonneg|exact P]|]. intros h Hh F. rewrite dot_scal_l by congruence.
  replace (c * f (map2 radd x h) - c * f x - c * dot g h) with (c * (f (map2 radd x h) - f x - dot g h)) by ring. rewrite abs_mul, <- rmul_assoc. apply le_mul_l; [apply abs_nonneg|]. apply H; assumption.
Qed.
Lemma gradient_chain m n (O : nat -> nat -> K) (f : array -> K) (d : option array) x g : length x = n -> match d with Some d => length d = m | None => True end ->
  let res x := match d with Some d => map2 rsub (matvec m n O x) d | None => matvec m n O x end in
  is_gradient f (res x) g -> is_gradient (fun y => f (res y)) x (matvec n m (transposed O) g).
Proof.
  intros Hx Hd res [L (r & C & R & P & H)].
  assert (Lr : forall y, length (res y) = m). { intros y. unfold res. destruct d; [rewrite map2_length|]; rewrite matvec_length; congruence. }
  rewrite Lr in L, H. split; [rewrite matvec_length; congruence|]. destruct (matvec_small N1 m n O r R) as (r' & R' & S'). destruct (matvec_bound m n O) as (C' & P' & B'). exists r', (C * C'). split; [exact R'|]. split; [apply le_mul_pos; assumption|].
  intros h Hh F. rewrite Hx in Hh. assert (E : res (map2 radd x h) = map2 radd (res x) (matvec m n O h)). { unfold res. rewrite matvec_add by assumption. destruct d; [|reflexivity]. apply minus_add; rewrite !matvec_length; congruence. }
  rewrite E, <- (dot_matvec m n O g h L Hh). eapply le_trans; [apply H; [apply matvec_length|apply S'; assumption]|]. rewrite <- rmul_assoc. apply le_mul_l; [exact P|apply B', Hh].
Qed.

(** the Huber function: h(t) = 2 t p - p^2, where p is the projection of t on the interval, and h'(t) = 2 p *)
Definition projection (delta t : K) : K := if leb t (- delta) then - delta else if leb delta t then delta else t.
Lemma leb_spec (a b : K) : if leb a b then le a b else lt b a.
Proof. unfold leb. pose proof (ltb_spec b a) as H. destruct (ltb b a); exact H. Qed.
Lemma huber_projection (delta t : K) : le 0 delta -> huber1 delta t = two * t * projection delta t - projection delta t * projection delta t /\ dhuber1 delta t = two * projection delta t.
Proof.
  intros Hd. unfold huber1, dhuber1, projection. pose proof (leb_spec t (- delta)) as H1. pose proof (leb_spec delta t) as H2. pose proof (ltb_spec (abs t) delta) as H3. pose proof (leb_spec delta (abs t)) as H4.
  destruct (leb t (- delta)).
  - assert (abs t = - t) as Ea. { rewrite <- abs_opp. apply abs_pos_eq. apply opp_nonneg. eapply le_trans; [exact H1|]. replace 0 with (- (0) : K) by ring. apply le_opp, Hd. }
    assert (le delta (abs t)) as Hl. { rewrite Ea. apply le_opp in H1. replace (- - delta) with delta in H1 by ring. exact H1. }
    destruct (ltb (abs t) delta); [unfold lt, le in *; congruence|]. destruct (leb delta (abs t)); [|unfold lt, le in *; congruence]. rewrite Ea. unfold two. cbn [power]. split; ring.
  - destruct (leb delta t).
    + assert (abs t = t) as Ea by (apply abs_pos_eq; eapply le_trans; [exact Hd|exact H2]). rewrite Ea in *. destruct (ltb t delta); [unfold lt, le in *; congruence|]. destruct (leb delta t); [|unfold lt, le in *; congruence]. unfold two. cbn [power]. split; ring.
    + assert (lt (abs t) delta) as Hl. { destruct (abs_cases t) as [[_ ->]|[_ ->]]; [exact H2|]. apply lt_sub. apply (proj1 (lt_sub _ _)) in H1. replace (delta - - t) with (t - - delta) by ring. exact H1. }
      destruct (ltb (abs t) delta); [|unfold lt, le in *; congruence]. unfold two. cbn [power]. pose proof (abs_sq t) as Q. split; [|ring]. replace (abs t * (abs t * 1)) with (abs t * abs t) by ring. rewrite Q. ring.
Qed.
Lemma projection_in (delta t : K) : le 0 delta -> le (- delta) (projection delta t) /\ le (projection delta t) delta.
Proof.
  intros Hd. assert (le (- delta) delta) as Q. { apply le_trans with 0; [|exact Hd]. replace 0 with (- (0) : K) by ring. apply le_opp, Hd. }
  unfold projection. pose proof (leb_spec t (- delta)) as H1. pose proof (leb_spec delta t) as H2. destruct (leb t (- delta)); [split; [apply le_refl|exact Q]|]. destruct (leb delta t); [split; [exact Q|apply le_refl]|]. split; apply lt_asym; assumption.
Qed.
Lemma projection_sep (delta t z : K) : le 0 delta -> le (- delta) z -> le z delta -> le 0 ((projection delta t - z) * (t - projection delta t)).
Proof.
  intros Hd L U. unfold projection. pose proof (leb_spec t (- delta)) as H1. pose proof (leb_spec delta t) as H2. destruct (leb t (- delta)).
  - replace ((- delta - z) * (t - - delta)) with ((z - - delta) * (- delta - t)) by ring. apply le_mul_pos; apply (proj1 (le_sub _ _)); assumption.
  - destruct (leb delta t); [apply le_mul_pos; apply (proj1 (le_sub _ _)); assumption|]. replace ((t - z) * (t - t)) with (0 : K) by ring. apply le_refl.
Qed.
Lemma huber_bounds (delta t s : K) : le 0 delta -> le 0 (huber1 delta (t + s) - huber1 delta t - dhuber1 delta t * s) /\ le (huber1 delta (t + s) - huber1 delta t - dhuber1 delta t * s) (s * s).
Proof.
  intros Hd. destruct (huber_projection delta t Hd) as [-> ->]. destruct (huber_projection delta (t + s) Hd) as [-> _]. destruct (projection_in delta t Hd) as [L1 U1]. destruct (projection_in delta (t + s) Hd) as [L2 U2].
  pose proof (projection_sep delta (t + s) (projection delta t) Hd L1 U1) as S1. pose proof (projection_sep delta t (projection delta (t + s)) Hd L2 U2) as S2. set (p := projection delta t) in *. set (q := projection delta (t + s)) in *. unfold two.
  split.
  - replace ((1 + 1) * (t + s) * q - q * q - ((1 + 1) * t * p - p * p) - (1 + 1) * p * s) with ((1 + 1) * ((q - p) * (t + s - q)) + (q - p) * (q - p)) by ring. apply le_add_pos; [apply le_mul_pos; [apply two_nonneg|exact S1]|apply square_nonneg].
  - apply le_sub. replace (s * s - ((1 + 1) * (t + s) * q - q * q - ((1 + 1) * t * p - p * p) - (1 + 1) * p * s)) with ((t + s - q - (t - p)) * (t + s - q - (t - p)) + (1 + 1) * ((p - q) * (t - p))) by ring. apply le_add_pos; [apply square_nonneg|apply le_mul_pos; [apply two_nonneg|exact S2]].
Qed.
Lemma huber_derivative (delta : K) : le 0 delta -> derivative (huber1 delta) (dhuber1 delta).
Proof.
  intros Hd t. exists 1, 1. split; [apply lt_0_1, N1|]. split; [apply one_nonneg|]. intros s _. destruct (huber_bounds delta t s Hd) as [L U]. rewrite (abs_pos_eq _ L). replace (1 * (s * s)) with (s * s) by ring. exact U.
Qed.
Lemma square_derivative : derivative (fun t => t * t) (fun t => two * t).
Proof.
  intros t. exists 1, 1. split; [apply lt_0_1, N1|]. split; [apply one_nonneg|]. intros s _. unfold two. replace ((t + s) * (t + s) - t * t - (1 + 1) * t * s) with (s * s) by ring. rewrite (abs_pos_eq _ (square_nonneg s)). replace (1 * (s * s)) with (s * s) by ring. apply le_refl.
Qed.
(** |t|^p *)
Lemma power_taylor (T : K) p : lt 0 T -> exists C, le 0 C /\ forall w, le (abs w) T -> le (abs (power (T + w) p - power T p - of_nat p * power T (p - 1) * w)) (C * (w * w)).
Proof.
  intros HT. induction p as [|p (C & P & H)].
  - exists 0. split; [apply le_refl|]. intros w _. cbn. replace (1 - 1 - 0 * 1 * w) with (0 : K) by ring. rewrite abs_0. replace (0 * (w * w)) with (0 : K) by ring. apply le_refl.
  - set (Q := match p with O => 0 | S p' => of_nat p * power T p' end : K). assert (HQ : le 0 Q). { unfold Q. destruct p; [apply le_refl|]. apply le_mul_pos; [|apply power_nonneg, lt_asym, HT]. clear. generalize (S p). intros m. induction m; cbn; [apply le_refl|]. apply le_add_pos; [apply one_nonneg|assumption]. }
    exists ((T + T) * C + Q). split; [apply le_add_pos; [apply le_mul_pos; [apply le_add_pos; apply lt_asym, HT|exact P]|exact HQ]|]. intros w Hw. specialize (H w Hw).
    replace (power (T + w) (S p) - power T (S p) - of_nat (S p) * power T (S p - 1) * w) with ((T + w) * (power (T + w) p - power T p - of_nat p * power T (p - 1) * w) + Q * (w * w)).
    2: { unfold Q. cbn [power of_nat]. replace (S p - 1)%nat with p by lia. destruct p as [|p']; [cbn; ring|]. replace (S p' - 1)%nat with p' by lia. cbn [power]. ring. }
    eapply le_trans; [apply abs_add|]. replace (((T + T) * C + Q) * (w * w)) with ((T + T) * (C * (w * w)) + Q * (w * w)) by ring. apply le_add.
    + rewrite abs_mul. apply le_mul_both; [apply abs_nonneg|apply le_mul_pos; [exact P|apply square_nonneg]| |exact H]. eapply le_trans; [apply abs_add|]. rewrite (abs_pos_eq T (lt_asym _ _ HT)). apply le_add; [apply le_refl|exact Hw].
    + rewrite abs_pos_eq; [apply le_refl|]. apply le_mul_pos; [exact HQ|apply square_nonneg].
Qed.
Lemma power_small (s : K) p : le (abs s) 1 -> le (power (abs s) (S (S p))) (s * s).
Proof.
  intros H. rewrite <- abs_sq. induction p as [|p IH]; [cbn; replace (abs s * (abs s * 1)) with (abs s * abs s) by ring; apply le_refl|]. change (power (abs s) (S (S (S p)))) with (abs s * power (abs s) (S (S p))). apply le_trans with (1 * (abs s * abs s)); [|replace (1 * (abs s * abs s)) with (abs s * abs s) by ring; apply le_refl]. apply le_mul_both; [apply abs_nonneg| |exact H|exact IH]. apply le_mul_pos; apply abs_nonneg.
Qed.
Lemma normp_derivative p : (2 <= p)%nat -> derivative (fun t => power (abs t) p) (fun t => sign t * of_nat p * power (abs t) (p - 1)).
Proof.
  intros Hp t. destruct (eq_dec t 0) as [->|Z].
  - exists 1, 1. split; [apply lt_0_1, N1|]. split; [apply one_nonneg|]. intros s Hs. unfold sign. rewrite lt_irrefl, abs_0. replace (0 + s) with s by ring. destruct p as [|[|p]]; [lia|lia|].
    replace (power (abs s) (S (S p)) - power 0 (S (S p)) - 0 * of_nat (S (S p)) * power 0 (S (S p) - 1) * s) with (power (abs s) (S (S p))) by (cbn [power]; ring).
    rewrite abs_pos_eq by apply power_nonneg, abs_nonneg. replace (1 * (s * s)) with (s * s) by ring. apply power_small, Hs.
  - assert (HT : lt 0 (abs t)). { pose proof (abs_nonneg t) as Q. apply le_lt_eq in Q. destruct Q as [Q|Q]; [exact Q|]. exfalso. apply Z. destruct (abs_cases t) as [[_ E]|[_ E]]; rewrite E in Q; [congruence|]. replace t with (- - t) by ring. rewrite <- Q. ring. }
    destruct (power_taylor (abs t) p HT) as (C & P & H). exists (abs t), C. split; [exact HT|]. split; [exact P|]. intros s Hs.
    assert (exists e, sign t = e /\ (e = 1 \/ e = - (1)) /\ abs t = e * t) as (e & Es & Ee & Et).
    { unfold sign. destruct (lt_total K t 0) as [Q|[Q|Q]]; [contradiction| |].
      - rewrite Q. exists (- (1)). split; [reflexivity|]. split; [right; reflexivity|]. unfold abs. rewrite Q. ring.
      - pose proof (lt_asym _ _ Q) as Q'. unfold le in Q'. rewrite Q', Q. exists 1. split; [reflexivity|]. split; [left; reflexivity|]. unfold abs. rewrite Q'. ring. }
    assert (A : forall u, abs (e * u) = abs u). { intros u. destruct Ee as [-> | ->]; [f_equal; ring|]. rewrite <- (abs_opp u). f_equal. ring. }
    assert (abs (t + s) = abs t + e * s) as ->.
    { rewrite <- A. replace (e * (t + s)) with (abs t + e * s) by (rewrite Et; ring). apply abs_pos_eq. rewrite <- (A s) in Hs. apply le_sub. replace (abs t + e * s - 0) with (abs t - - (e * s)) by ring. apply (proj1 (le_sub _ _)). eapply le_trans; [apply abs_ub'|exact Hs]. }
    rewrite Es. replace (e * of_nat p * power (abs t) (p - 1) * s) with (of_nat p * power (abs t) (p - 1) * (e * s)) by ring.
    replace (s * s) with (e * s * (e * s)) by (destruct Ee as [-> | ->]; ring). apply H. rewrite A. exact Hs.
Qed.

(** the norms *)
Lemma map_square x : total (map (fun t => t * t) x) = norm2 x.
Proof. induction x as [|t x IH]; [reflexivity|]. unfold norm2, dot in *. cbn [map total map2]. rewrite IH. reflexivity. Qed.
Lemma norm2_smooth m : smooth m (make_norm2 (K := K) None).
Proof. intros y _. apply (gradient_f_ext (fun y => total (map (fun t => t * t) y))); [intros; apply map_square|]. apply (separable (fun t => t * t) (fun t => two * t)), square_derivative. Qed.
Lemma huber_smooth m delta : le 0 delta -> smooth m (make_huber (K := K) (Some delta)).
Proof. intros Hd y _. apply (separable (huber1 delta) (dhuber1 delta)), huber_derivative, Hd. Qed.
Lemma normp_smooth m p : (2 <= p)%nat -> smooth m (make_normp (K := K) p).
Proof. intros Hp y _. apply (separable _ _ _ (normp_derivative p Hp)). Qed.
Lemma mul_smooth m c N : smooth m N -> smooth (K := K) m (norm_mul c N).
Proof. intros S y Hy. apply gradient_scal, S, Hy. Qed.
Lemma quadratic_norm2 m : quadratic m (make_norm2 (K := K) None).
Proof.
  split.
  2: { intros a y Hy. cbn [make_norm2 n_call]. unfold norm2. rewrite dot_scal_l, dot_scal_r by (rewrite ?map_length; reflexivity). ring. }
  intros y h Hy Hh. cbn [make_norm2 n_diff n_call]. rewrite map_length. split; [exact Hy|]. unfold norm2. rewrite dot_scal_l by congruence. rewrite (dot_sum m (map2 radd y h)) by (rewrite map2_length; congruence). rewrite !(dot_sum m) by assumption. rewrite <- sum_mul_l, <- !sum_add. apply sum_ext. intros i Hi. rewrite nth_map2 by lia. unfold two. ring.
Qed.
Lemma quadratic_norm2_C m (O : nat -> nat -> K) C : (forall i j, (i < m)%nat -> (j < m)%nat -> O i j = O j i) -> (forall y, length y = m -> C y = matvec m m O y) -> quadratic m (make_norm2 (Some C)).
Proof.
  intros Sy EC. split.
  2: { intros a y Hy. cbn [make_norm2 n_call]. rewrite !EC by (rewrite ?map_length; exact Hy). rewrite matvec_scal by exact Hy. rewrite dot_scal_l, dot_scal_r by (rewrite ?map_length, ?matvec_length; exact Hy). ring. }
  intros y h Hy Hh. cbn [make_norm2 n_diff n_call]. rewrite !EC by (rewrite ?map2_length; congruence). rewrite map_length, matvec_length. split; [reflexivity|]. rewrite matvec_add by assumption. rewrite dot_add_r by (rewrite ?map2_length, ?matvec_length; congruence). rewrite !dot_add_l by (rewrite ?matvec_length; congruence).
  assert (dot h (matvec m m O y) = dot y (matvec m m O h)) as E. { rewrite (dot_matvec m m O h y Hh Hy). rewrite (dot_comm y) by (rewrite matvec_length; exact Hy). f_equal. apply (array_ext m); try apply matvec_length. intros i Hi. rewrite !nth_matvec by exact Hi. apply sum_ext. intros j Hj. unfold transposed. rewrite (Sy j i) by assumption. reflexivity. }
  rewrite dot_scal_l by (rewrite matvec_length; congruence). rewrite (dot_comm (matvec m m O y) h) by (rewrite matvec_length; congruence). rewrite E. unfold two. ring.
Qed.
Lemma quadratic_mul m c N : quadratic m N -> quadratic (K := K) m (norm_mul c N).
Proof.
  intros [Q Q2]. split; [|intros a y Hy; cbn [norm_mul n_call]; rewrite (Q2 a y Hy); ring]. intros y h Hy Hh. destruct (Q y h Hy Hh) as [L E]. cbn [norm_mul n_diff n_call]. rewrite map_length. split; [exact L|]. rewrite E, dot_scal_l by congruence. ring.
Qed.
Lemma norm2_C_smooth m (O : nat -> nat -> K) C : (forall i j, (i < m)%nat -> (j < m)%nat -> O i j = O j i) -> (forall y, length y = m -> C y = matvec m m O y) -> smooth m (make_norm2 (Some C)).
Proof.
  intros Sy EC y Hy. pose proof (quadratic_norm2_C m O C Sy EC) as [Q _]. split; [destruct (Q y y Hy Hy) as [L _]; congruence|]. destruct (matvec_bound m m O) as (B & P & HB). exists 1, (1 + B). split; [apply lt_0_1, N1|]. split; [apply le_add_pos; [apply one_nonneg|exact P]|].
  intros h Hh _. rewrite Hy in Hh. destruct (Q y h Hy Hh) as [_ ->]. match goal with |- le (abs ?e) _ => replace e with (n_call (make_norm2 (Some C)) h) by ring end. cbn [make_norm2 n_call]. rewrite (EC h Hh).
  replace ((1 + B) * dot h h) with (dot h h + B * dot h h) by ring. apply le_trans with (dot h h + dot (matvec m m O h) (matvec m m O h)); [|apply le_add; [apply le_refl|apply HB, Hh]].
  rewrite (dot_sum m h (matvec m m O h)), (dot_sum m h h), (dot_sum m (matvec m m O h)) by (try apply matvec_length; exact Hh). rewrite <- sum_add. eapply le_trans; [apply abs_sum|]. apply sum_le. intros i Hi. set (a := nth i h 0). set (b := nth i (matvec m m O h) 0).
  rewrite abs_mul, <- (abs_sq a), <- (abs_sq b). set (u := abs a). set (v := abs b). assert (le 0 u) by apply abs_nonneg. assert (le 0 v) by apply abs_nonneg. destruct (le_total u v) as [H'|H'].
  - apply le_trans with (v * v); [apply le_mul_r; assumption|]. replace (v * v) with (0 + v * v) at 1 by ring. apply le_add; [apply square_nonneg|apply le_refl].
  - apply le_trans with (u * u); [apply le_mul_l; assumption|]. replace (u * u) with (u * u + 0) at 1 by ring. apply le_add; [apply le_refl|apply square_nonneg].
Qed.

(** criteria *)
Lemma misfit_linear m n O e x : is_matrix m n O (e_op e) -> match e_data e with None => True | Some d => length d = m end -> length x = n ->
  misfit e x = Ok (match e_data e with Some d => map2 rsub (matvec m n O x) d | None => matvec m n O x end).
Proof.
  intros [M _] D Hx. unfold misfit. rewrite (M x Hx). cbn [rbind]. destruct (e_data e) as [d|]; [|reflexivity]. unfold minus. rewrite matvec_length, D, Nat.eqb_refl. reflexivity.
Qed.
Lemma misfit_length m n (O : nat -> nat -> K) (d : option array) x : match d with None => True | Some d => length d = m end -> length (match d with Some d => map2 rsub (matvec m n O x) d | None => matvec m n O x end) = m.
Proof. intros D. destruct d; [rewrite map2_length|]; rewrite matvec_length; congruence. Qed.
Lemma element_gradient_ok n e x : linear_element smooth n e -> length x = n -> exists g, element_gradient e x = Ok g /\ is_gradient (fun y => ok_value (element_value e y)) x g.
Proof.
  intros (m & O & M & S & D) Hx. pose proof (misfit_length m n O (e_data e) x D) as L. pose proof (S _ L) as G. exists (matvec n m (transposed O) (n_diff (e_norm e) (match e_data e with Some d => map2 rsub (matvec m n O x) d | None => matvec m n O x end))). split.
  - unfold element_gradient. rewrite (misfit_linear m n O e x M D Hx). cbn [rbind]. destruct M as [_ M]. apply M. destruct G as [G _]. congruence.
  - apply (gradient_f_ext (fun y => n_call (e_norm e) (match e_data e with Some d => map2 rsub (matvec m n O y) d | None => matvec m n O y end))).
    + intros y Hy. unfold element_value. rewrite (misfit_linear m n O e y M D) by congruence. reflexivity.
    + apply (gradient_chain m n O (n_call (e_norm e)) (e_data e) x); assumption.
Qed.
Lemma element_value_ok P n e x : linear_element P n e -> length x = n -> exists v, element_value e x = Ok v.
Proof. intros (m & O & M & S & D) Hx. unfold element_value. rewrite (misfit_linear m n O e x M D Hx). cbn. eauto. Qed.
Lemma value_ok P n es c x : every (linear_element P n) es c -> length x = n -> exists v, value es c x = Ok v.
Proof.
  intros E Hx. revert E. induction c as [id|l IH] using component_rect'.
  - cbn. destruct (nth_error es id); [|tauto]. intros E. eapply element_value_ok; eassumption.
  - rewrite every_Cr, value_Cr. intros [_ E]. generalize (0 : K). induction IH as [|c l Hc Hl IHl]; intros acc; [cbn; eauto|]. rewrite everyl_cons in E. destruct E as [E1 E2]. rewrite values_cons. destruct (Hc E1) as [v ->]. cbn [rbind]. auto.
Qed.
Lemma criterion_gradient n es c x : every (linear_element smooth n) es c -> length x = n -> exists g, gradient es c x = Ok g /\ is_gradient (fun y => ok_value (value es c y)) x g.
Proof.
  intros E Hx. revert E. induction c as [id|l IH] using component_rect'.
  - cbn [every value gradient]. destruct (nth_error es id) as [e|]; [|tauto]. intros E. apply (element_gradient_ok n); assumption.
  - rewrite every_Cr, gradient_Cr. intros [N E].
    assert (H : forall k (acc : K), match k with None => l <> [] | Some (f, g) => is_gradient f x g end -> exists g, gradients es l x (option_map snd k) = Ok g /\ is_gradient (fun y => match k with None => 0 | Some (f, _) => f y end + ok_value (values es l y 0)) x g).
    { clear N. induction IH as [|c l Hc Hl IHl]; intros k acc Hk.
      - destruct k as [[f g]|]; [|congruence]. exists g. split; [reflexivity|]. apply (gradient_f_ext f); [|exact Hk]. intros y _. cbn. ring.
      - rewrite everyl_cons in E. destruct E as [E1 E2]. destruct (Hc E1) as (g1 & G1 & D1). rewrite gradients_cons, G1. cbn [rbind].
        assert (X : exists g', match option_map snd k with Some w => plus w g1 | None => Ok g1 end = Ok g' /\ is_gradient (fun y => match k with None => 0 | Some (f, _) => f y end + ok_value (value es c y)) x g').
        { destruct k as [[f g]|]; cbn [option_map snd].
          - exists (map2 radd g g1). pose proof Hk as [L _]. pose proof D1 as [L1 _]. split; [apply plus_ok; congruence|]. apply gradient_sum; assumption.
          - exists g1. split; [reflexivity|]. eapply gradient_f_ext; [|exact D1]. intros y _. cbn. ring. }
        destruct X as (g' & -> & D'). cbn [rbind]. destruct (IHl E2 (Some (fun y => match k with None => 0 | Some (f, _) => f y end + ok_value (value es c y), g')) 0 D') as (g & G & D). exists g. split; [exact G|]. eapply gradient_f_ext; [|exact D].
        intros y Hy. cbn beta iota. rewrite values_cons. destruct (value_ok smooth n es c y E1 ltac:(congruence)) as [v Ev]. rewrite Ev. cbn [rbind ok_value]. rewrite (values_acc es l y (0 + v)). destruct (values es l y 0) as [w|] eqn:Ew; cbn [rbind ok_value]; [ring|].
        exfalso. clear - E2 Ew Hy Hx N1. assert (length y = n) as Ly by congruence. clear Hy. revert Ew. generalize (0 : K). induction l as [|d l IH]; intros q Ew; [discriminate|]. rewrite everyl_cons in E2. destruct E2 as [A B]. rewrite values_cons in Ew. destruct (value_ok smooth n es d y A Ly) as [w Ev]. rewrite Ev in Ew. cbn [rbind] in Ew. apply (IH B _ Ew). }
    destruct (H None 0 N) as (g & G & D). exists g. split; [exact G|]. eapply gradient_f_ext; [|exact D]. intros y _. cbn beta iota. rewrite value_Cr. ring.
Qed.

(** the optimal step *)
Lemma value_step n es : forall l x d a acc q, everyl (linear_element quadratic2 n) es l -> length x = n -> length d = n -> optimal_sum es l d = Ok q -> forall (w : option array), (match w with None => l <> [] | Some w => length w = n end) ->
  exists g v, gradients es l x w = Ok g /\ length g = n /\ values es l x acc = Ok v /\ values es l (map2 radd x (map (fun t => a * t) d)) acc = Ok (v + a * (dot d g - match w with Some w => dot d w | None => 0 end) + a * a * q).
Proof.
  induction l as [|c l IH]; intros x d a acc q E Hx Hd Eq w Hw.
  - destruct w as [w|]; [|congruence]. cbn in Eq. injection Eq as <-. exists w, acc. repeat split; try assumption. cbn. f_equal. ring.
  - rewrite everyl_cons in E. destruct E as [E1 E2]. destruct c as [id|]; [|discriminate]. cbn [optimal_sum] in Eq. cbn in E1. destruct (nth_error es id) as [e|] eqn:Ee; [|tauto]. destruct E1 as (m & O & M & [Kd [Q Q2]] & D).
    pose proof M as [M1 M2]. rewrite (M1 d Hd) in Eq. cbn [rbind] in Eq. destruct (optimal_sum es l d) as [t|] eqn:Et; cbn [rbind] in Eq; [|discriminate]. injection Eq as <-. unfold plain_norm. rewrite Kd.
    pose proof (misfit_length m n O (e_data e) x D) as L. set (y := match e_data e with Some d => map2 rsub (matvec m n O x) d | None => matvec m n O x end) in *.
    set (h := map (fun t => a * t) d). assert (Lh : length h = n) by (unfold h; rewrite map_length; exact Hd).
    assert (Emx : misfit e x = Ok y) by (apply (misfit_linear m n O e x M D Hx)).
    assert (Emh : misfit e (map2 radd x h) = Ok (map2 radd y (matvec m n O h))). { rewrite (misfit_linear m n O e _ M D) by (rewrite map2_length; congruence). f_equal. unfold y. rewrite matvec_add by congruence. destruct (e_data e); [|reflexivity]. apply minus_add; rewrite !matvec_length; congruence. }
    destruct (Q y (matvec m n O h) L (matvec_length m n O h)) as [Lg Qh]. destruct (Q y (matvec m n O d) L (matvec_length m n O d)) as [_ Qd].
    set (g1 := matvec n m (transposed O) (n_diff (e_norm e) y)). assert (L1 : length g1 = n) by apply matvec_length.
    assert (Eg : gradient es (El id) x = Ok g1). { cbn [gradient]. rewrite Ee. unfold element_gradient. rewrite Emx. cbn [rbind]. apply M2. exact Lg. }
    assert (Ev : value es (El id) x = Ok (n_call (e_norm e) y)). { cbn [value]. rewrite Ee. unfold element_value. rewrite Emx. reflexivity. }
    assert (Nh : n_call (e_norm e) (matvec m n O h) = a * a * n_call (e_norm e) (matvec m n O d)).
    { unfold h. rewrite matvec_scal by exact Hd. apply Q2, matvec_length. }
    assert (Evh : value es (El id) (map2 radd x h) = Ok (n_call (e_norm e) y + a * dot d g1 + a * a * n_call (e_norm e) (matvec m n O d))).
    { cbn [value]. rewrite Ee. unfold element_value. rewrite Emh. cbn [rbind]. rewrite Qh, Nh. f_equal. f_equal. f_equal. rewrite (dot_matvec m n O) by assumption. fold g1. unfold h. rewrite dot_scal_r by congruence. rewrite (dot_comm g1 d) by congruence. reflexivity. }
    set (w' := match w with Some w => map2 radd w g1 | None => g1 end).
    assert (Lw : length w' = n) by (unfold w'; destruct w as [w|]; [rewrite map2_length; congruence|exact L1]).
    assert (Ew : match w with Some w => plus w g1 | None => Ok g1 end = Ok w') by (unfold w'; destruct w as [w|]; [apply plus_ok; congruence|reflexivity]).
    assert (Dw : dot d w' = match w with Some w => dot d w | None => 0 end + dot d g1). { unfold w'. destruct w as [w|]; [apply dot_add_r; congruence|ring]. }
    destruct (IH x d a (acc + n_call (e_norm e) y) t E2 Hx Hd Et (Some w') Lw) as (g & v & G & Lgg & V & Vh).
    exists g, v. rewrite gradients_cons, Eg. cbn [rbind]. rewrite Ew. cbn [rbind]. split; [exact G|]. split; [exact Lgg|]. rewrite !values_cons, Ev. cbn [rbind]. split; [exact V|]. fold h. rewrite Evh. cbn [rbind]. fold h in Vh.
    rewrite values_acc in Vh. rewrite values_acc. destruct (values es l (map2 radd x h) 0) as [z|]; cbn [rbind] in *; [|discriminate]. injection Vh as Vh. f_equal. rewrite Dw in Vh.
    replace (acc + (n_call (e_norm e) y + a * dot d g1 + a * a * n_call (e_norm e) (matvec m n O d)) + z) with (acc + n_call (e_norm e) y + z + a * dot d g1 + a * a * n_call (e_norm e) (matvec m n O d)) by ring. rewrite Vh. ring.
Qed.
Lemma two_neq : (two : K) <> 0.
Proof. intros E. pose proof (lt_0_1 N1) as H. apply (lt_neq 0 (two : K)); [|congruence]. unfold two. apply lt_add_pos; [exact H|apply one_nonneg]. Qed.
Lemma optimal_ok n es l x d g a q b : every (linear_element quadratic2 n) es (Cr l) -> length x = n -> length d = n -> gradient es (Cr l) x = Ok g -> optimal_sum es l d = Ok q -> lt 0 q -> optimal_step es l d g = Ok (Some a) ->
  le (ok_value (value es (Cr l) (map2 radd x (map (fun t => a * t) d)))) (ok_value (value es (Cr l) (map2 radd x (map (fun t => b * t) d)))).
Proof.
  rewrite every_Cr. intros [N E] Hx Hd G Q P A. unfold optimal_step in A. rewrite Q in A. cbn [rbind] in A. assert (Z : q <> 0) by (intros Z; apply (lt_neq _ _ P); congruence). pose proof (eqb_spec q 0) as Z'. destruct (eqb q 0); [contradiction|]. injection A as A.
  rewrite gradient_Cr in G. destruct (value_step n es l x d a 0 q E Hx Hd Q None N) as (g1 & v & G1 & _ & V & Va). destruct (value_step n es l x d b 0 q E Hx Hd Q None N) as (g2 & v' & G2 & _ & V' & Vb).
  rewrite G in G1, G2. injection G1 as <-. injection G2 as <-. rewrite V in V'. injection V' as <-. rewrite !value_Cr, Va, Vb. cbn [ok_value]. set (p := dot d g) in *.
  assert (Hp : p = - (two * q * a)). { rewrite <- A. assert (div (- div p two) q * q = - div p two) as X by (apply div_mul, Z). replace (two * q * div (- div p two) q) with (two * (div (- div p two) q * q)) by ring. rewrite X. pose proof (div_mul p two two_neq) as Y. rewrite <- Y at 1. ring. }
  apply le_sub. rewrite Hp. unfold two. match goal with |- le 0 ?e => replace e with (q * ((b - a) * (b - a))) by ring end. apply le_mul_pos; [apply lt_asym, P|apply square_nonneg].
Qed.

(** backtracking *)
Lemma backtrack_ok (tau f0 : K) (f : K -> K) : forall i fi a, fi = f a -> let r := backtrack i tau f0 fi f a in exists j, (j <= i)%nat /\ r = a * power tau j /\ (le (f r) f0 \/ j = i) /\ forall k, (k < j)%nat -> lt f0 (f (a * power tau k)).
Proof.
  induction i as [|i IH]; intros fi a E; cbn [backtrack].
  - exists 0%nat. split; [lia|]. split; [cbn; ring|]. split; [right; reflexivity|]. intros; lia.
  - pose proof (ltb_spec f0 fi) as H. destruct (ltb f0 fi).
    + destruct (IH (f (a * tau)) (a * tau) eq_refl) as (j & Hj & Er & Hr & Hk). exists (S j). split; [lia|]. split; [rewrite Er; cbn [power]; ring|]. split; [destruct Hr; [left; assumption|right; lia]|]. intros [|k] Hk'; [cbn [power]; replace (a * 1) with a by ring; rewrite <- E; exact H|].
      specialize (Hk k ltac:(lia)). replace (a * power tau (S k)) with (a * tau * power tau k) by (cbn [power]; ring). exact Hk.
    + exists 0%nat. split; [lia|]. split; [cbn; ring|]. split; [left; rewrite <- E; exact H|]. intros; lia.
Qed.
Lemma backtracking_ok maxiter (tau f0 : K) (f : K -> K) a : lt 0 f0 -> (0 < maxiter)%nat -> let r := backtracking maxiter tau f0 f a in
  exists j, (1 <= j <= maxiter)%nat /\ r = a * power tau j /\ (le (f r) f0 \/ j = maxiter) /\ forall k, (1 <= k < j)%nat -> lt f0 (f (a * power tau k)).
Proof.
  intros P M. destruct maxiter as [|i]; [lia|]. unfold backtracking. cbn [backtrack]. assert (lt f0 (two * f0)) as H. { apply lt_sub. unfold two. replace ((1 + 1) * f0 - f0) with f0 by ring. exact P. }
  rewrite H. destruct (backtrack_ok tau f0 f i (f (a * tau)) (a * tau) eq_refl) as (j & Hj & Er & Hr & Hk). exists (S j). split; [lia|]. split; [rewrite Er; cbn [power]; ring|]. split; [destruct Hr; [left; assumption|right; lia]|]. intros [|k] Hk'; [lia|].
  specialize (Hk k ltac:(lia)). replace (a * power tau (S k)) with (a * tau * power tau k) by (cbn [power]; ring). exact Hk.
Qed.
(** no derivative of |t| at 0 *)
Lemma norm1_refuted g : ~ is_gradient (n_call (make_normp (K := K) 1)) [0] g.
Proof.
  intros [L (r & C & R & P & H)]. destruct g as [|g [|? ?]]; try discriminate. set (B := two * (C + 1)). assert (HB : lt 0 B). { unfold B. apply lt_mul; [unfold two; apply lt_add_pos; [apply lt_0_1, N1|apply one_nonneg]|]. replace (C + 1) with (1 + C) by ring. apply lt_add_pos; [apply lt_0_1, N1|exact P]. }
  assert (ZB : B <> 0) by (intros Z; apply (lt_neq _ _ HB); congruence). set (s := minimum r (div 1 B)). assert (Hs : lt 0 s) by (apply minimum_pos; [exact R|apply div_pos; [apply lt_0_1, N1|exact HB]]).
  assert (As : abs s = s) by (apply abs_pos_eq, lt_asym, Hs).
  assert (H1 := H [s] eq_refl). assert (H2 := H [- s] eq_refl). cbn in H1, H2. rewrite abs_0 in H1, H2. replace (0 + s) with s in H1 by ring. replace (0 + - s) with (- s) in H2 by ring. rewrite abs_opp in H2. rewrite As in H1, H2.
  assert (le s r) as Hr by apply minimum_l. specialize (H1 ltac:(constructor; [rewrite As; exact Hr|constructor])). specialize (H2 ltac:(constructor; [rewrite abs_opp, As; exact Hr|constructor])).
  pose proof (le_trans _ _ _ (abs_ub _) H1) as U1. pose proof (le_trans _ _ _ (abs_ub _) H2) as U2. pose proof (le_add _ _ _ _ U1 U2) as U.
  assert (U' : le 0 (s * (C * s - 1) * two)). { apply (proj1 (le_sub _ _)) in U. match type of U with le 0 ?e => replace e with (s * (C * s - 1) * two) in U by (unfold two; ring) end. exact U. }
  assert (Hneg : lt 0 (1 - C * s)).
  { assert (le (C * s) (C * div 1 B)) as Q1 by (apply le_mul_l; [exact P|apply minimum_r]). assert (lt (C * div 1 B) 1) as Q2; [|apply (proj1 (lt_sub _ _)); eapply le_lt_trans; eassumption].
    apply lt_sub. assert (div 1 B * B = 1) as X by (apply div_mul, ZB). replace (1 - C * div 1 B) with (div 1 B * (B - C)) by (rewrite <- X at 2; ring). apply lt_mul; [apply div_pos; [apply lt_0_1, N1|exact HB]|].
    unfold B, two. replace ((1 + 1) * (C + 1) - C) with (1 + (1 + C)) by ring. apply lt_add_pos; [apply lt_0_1, N1|]. apply le_add_pos; [apply one_nonneg|exact P]. }
  assert (lt 0 (s * (1 - C * s) * two)) as F. { apply lt_mul; [apply lt_mul; assumption|]. unfold two. apply lt_add_pos; [apply lt_0_1, N1|apply one_nonneg]. }
  pose proof (lt_add_pos _ _ F U') as Z. replace (s * (1 - C * s) * two + s * (C * s - 1) * two) with (0 : K) in Z by ring. apply (lt_neq _ _ Z). reflexivity.
Qed.
End Gradients.
