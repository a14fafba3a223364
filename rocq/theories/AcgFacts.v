(** Consequences for C43. *)
From Verif Require Import Base Algebra Ofield CritModel CritSpec CritSums CritCalc CgModel CgSpec CgProofs AcgModel AcgSpec AcgProofs.
Local Open Scope nat_scope.

(** * Any criterion and line search *)
Section General.
Context {K : ofield} (n : nat) (f : list K -> K) (g : list K -> list K) (value : list K -> result K) (gradient : list K -> result (list K)) (search : algo K -> result (number K)) (type : update_type) (s0 : algo K).
Context (V : forall x, length x = n -> value x = Ok (f x)) (G : forall x, length x = n -> gradient x = Ok (g x)) (L : forall x, length x = n -> length (g x) = n).
Add Ring KringAcg3 : (rth K).
Local Open Scope cr_scope.
Notation after := (after n value gradient search type s0).
Notation iterate := (iterate value gradient search type).
Definition sized (s : algo K) : Prop := (forall x, solution s = Some x -> length x = n /\ crit s = Some (f x)) /\ (iter_ s <> 0%nat -> forall d, descent s = Some d -> length d = n).
Definition moves (t s : algo K) : Prop :=
  iter_ s = S (iter_ t) /\ sized s /\ last_solution s = solution t /\
  forall x, solution s = Some x -> exists y d a s1, solution t = Some y /\ grad s = Some (g y) /\ grad_norm s = Some (norm2 (g y)) /\ descent s = Some d /\ last_crit s = Some (f y) /\ length d = n /\
    descent s1 = Some d /\ grad s1 = Some (g y) /\ search s1 = Ok (Some a) /\ x = along y a d.
Lemma axpy_length x a y (z : list K) : axpy x a y = Some z -> (forall x', x = Some x' -> length x' = n) -> (forall y', y = Some y' -> length y' = n) -> length z = n.
Proof.
  intros E Hx Hy. destruct x as [x|], a as [a|], y as [y|]; try discriminate. injection E as <-. specialize (Hx x eq_refl). specialize (Hy y eq_refl). rewrite map2_length; rewrite ?map_length; congruence.
Qed.
Lemma iterate_moves t s : sized t -> iterate t = Ok s -> moves t s.
Proof.
  intros [S1 S2] E. unfold AcgModel.iterate in E. destruct (update_gradient gradient t) as [t1|] eqn:E1; [|discriminate]. cbn [rbind] in E.
  destruct (update_descent type (update_gradient_norm t1)) as [t2|] eqn:E2; [|discriminate]. cbn [rbind] in E. destruct (update_solution search t2) as [t3|] eqn:E3; [|discriminate]. cbn [rbind] in E.
  destruct (update_criterion value t3) as [t4|] eqn:E4; [|discriminate]. cbn [rbind] in E. injection E as <-.
  unfold update_gradient in E1. destruct (evaluate gradient (solution t)) as [v|] eqn:Ev; [|discriminate]. injection E1 as <-.
  assert (Hv : forall x, v = Some x -> length x = n). { intros x ->. unfold evaluate in Ev. destruct (solution t) as [y|] eqn:Ey; [|discriminate]. destruct (S1 y eq_refl) as [Ly _]. rewrite G in Ev by exact Ly. injection Ev as <-. apply L, Ly. }
  assert (Hd : solution t2 = solution t /\ grad t2 = v /\ grad_norm t2 = option_map norm2 v /\ crit t2 = crit t /\ iter_ t2 = iter_ t /\ forall d, descent t2 = Some d -> length d = n).
  { unfold update_descent, update_gradient_norm in E2. cbn [set_gradient set_gradient_norm iter_ grad grad_norm solution descent crit] in E2. destruct (Nat.eqb_spec (iter_ t) 0) as [Z|Z].
    - injection E2 as <-. cbn. repeat split. intros d Ed. destruct v as [v|]; [|discriminate]. injection Ed as <-. rewrite map_length. apply Hv. reflexivity.
    - destruct (update type _) as [b|]; [|discriminate]. injection E2 as <-. cbn. repeat split. intros d Ed. apply (axpy_length _ _ _ _ Ed); [|apply S2, Z]. intros x Ex. destruct v as [v|]; [|discriminate]. injection Ex as <-. rewrite map_length. apply Hv. reflexivity. }
  destruct Hd as (D1 & D2 & D3 & D4 & D5 & D6). unfold update_solution in E3. destruct (search t2) as [a|] eqn:Ea; [|discriminate]. injection E3 as <-.
  unfold update_criterion in E4. cbn [set_solution solution] in E4. destruct (evaluate value (axpy (solution t2) a (descent t2))) as [w|] eqn:Ew; [|discriminate]. injection E4 as <-.
  unfold moves. cbn. rewrite D5. split; [reflexivity|].
  assert (Lx : forall x, axpy (solution t2) a (descent t2) = Some x -> length x = n). { intros x Ex. apply (axpy_length _ _ _ _ Ex); [|exact D6]. intros y Ey. rewrite D1 in Ey. apply S1, Ey. }
  split; [split; [|intros _; exact D6]|].
  { intros x Ex. cbn in Ex. split; [apply Lx, Ex|]. cbn. rewrite Ex in Ew. cbn [evaluate] in Ew. rewrite V in Ew by (apply Lx, Ex). injection Ew as <-. reflexivity. }
  split; [exact D1|]. intros x Ex. destruct (solution t2) as [y|] eqn:Ey; [|discriminate]. destruct a as [a|]; [|discriminate]. destruct (descent t2) as [d|] eqn:Ed; [|discriminate]. injection Ex as <-.
  rewrite <- D1 in Ev. cbn [evaluate] in Ev. destruct (S1 y (eq_sym D1)) as [Ly Cy]. rewrite G in Ev by exact Ly. injection Ev as <-.
  exists y, d, a, t2. rewrite D2, D3, D4. repeat split; auto.
Qed.
Lemma after_sized k : forall s, after k = Ok s -> sized s /\ iter_ s = k.
Proof.
  induction k as [|k IH]; intros s E.
  - cbn in E. unfold initialize in E. cbn [evaluate first_guess] in E. rewrite V in E by apply repeat_length. injection E as <-. split; [|reflexivity]. split.
    + intros x Ex. injection Ex as <-. split; [apply repeat_length|reflexivity].
    + intros Z. exfalso. apply Z. reflexivity.
  - cbn [AcgSpec.after] in E. destruct (after k) as [t|] eqn:Et; [|discriminate]. cbn [rbind] in E. destruct (IH t eq_refl) as [S I]. destruct (iterate_moves t s S E) as (I' & S' & _). rewrite I in I'. auto.
Qed.
Lemma after_moves k s : after (S k) = Ok s -> exists t, after k = Ok t /\ moves t s.
Proof.
  intros E. cbn [AcgSpec.after] in E. destruct (after k) as [t|] eqn:Et; [|discriminate]. exists t. split; [reflexivity|]. apply iterate_moves; [apply (after_sized k), Et|exact E].
Qed.
Lemma after_le k s j : after k = Ok s -> j <= k -> exists t, after j = Ok t /\ (solution s <> None -> solution t <> None).
Proof.
  intros E H. revert s E. induction H as [|k H IH]; intros s E; [eauto|]. destruct (after_moves k s E) as (t & Et & _ & _ & _ & M). destruct (IH t Et) as (u & Eu & Hu). exists u. split; [exact Eu|].
  intros N. apply Hu. destruct (solution s) as [x|]; [|contradiction]. destruct (M x eq_refl) as (y & _ & _ & _ & Ey & _). rewrite Ey. discriminate.
Qed.
(** the loop *)
Lemma cont_after (c : stop K) fuel : forall k s r, after k = Ok s -> cont value gradient search type fuel c s = Ok (Some r) ->
  exists j, k <= j <= k + fuel /\ after j = Ok r /\ stops c r = true /\ forall i t, k <= i < j -> after i = Ok t -> stops c t = false.
Proof.
  induction fuel as [|fuel IH]; intros k s r E H; cbn [cont] in H.
  - destruct (stops c s) eqn:S; [|discriminate]. injection H as <-. exists k. repeat split; auto; lia.
  - destruct (stops c s) eqn:S; [injection H as <-; exists k; repeat split; auto; lia|]. destruct (iterate s) as [t|] eqn:Et; [|discriminate]. cbn [rbind] in H.
    destruct (IH (Datatypes.S k) t r) as (j & Hj & Ej & Sj & F); [cbn [AcgSpec.after]; rewrite E; exact Et|exact H|]. exists j. repeat split; try assumption; try lia.
    intros i u Hi Eu. destruct (Nat.eq_dec i k) as [->|]; [rewrite E in Eu; injection Eu as <-; exact S|apply (F i u); [lia|exact Eu]].
Qed.
Lemma run_after (c : stop K) fuel r : run n value gradient search type fuel c s0 = Ok (Some r) ->
  exists k, 1 <= k <= S fuel /\ after k = Ok r /\ stops c r = true /\ forall i t, 1 <= i < k -> after i = Ok t -> stops c t = false.
Proof.
  intros E. unfold run in E. destruct (initialize n value s0) as [s|] eqn:Es; [|discriminate]. cbn [rbind] in E. destruct (iterate s) as [t|] eqn:Et; [|discriminate]. cbn [rbind] in E.
  assert (E1 : after 1 = Ok t) by (cbn [AcgSpec.after]; rewrite Es; exact Et). destruct (cont_after c fuel 1 t r E1 E) as (j & Hj & H). exists j. split; [lia|exact H].
Qed.
Lemma cont_ends (c : stop K) m r : stops c r = true -> forall fuel k s, after k = Ok s -> after (k + m) = Ok r -> m <= fuel -> exists r', cont value gradient search type fuel c s = Ok (Some r').
Proof.
  intros S. induction m as [|m IH]; intros fuel k s E Er H.
  - rewrite Nat.add_0_r in Er. rewrite E in Er. injection Er as ->. exists r. destruct fuel; cbn [cont]; rewrite S; reflexivity.
  - destruct fuel as [|fuel]; [lia|]. cbn [cont]. destruct (stops c s); [eauto|]. destruct (after_le (k + Datatypes.S m) r (Datatypes.S k) Er ltac:(lia)) as (t & Et & _). pose proof Et as Et'. cbn [AcgSpec.after] in Et'. rewrite E in Et'. cbn [rbind] in Et'. rewrite Et'. cbn [rbind].
    apply (IH fuel (Datatypes.S k)); [exact Et|rewrite <- Er; f_equal; lia|lia].
Qed.
Lemma run_ends (c : stop K) m r fuel : after (S m) = Ok r -> stops c r = true -> m <= fuel -> exists r', run n value gradient search type fuel c s0 = Ok (Some r').
Proof.
  intros E S H. destruct (after_le (Datatypes.S m) r 0 E ltac:(lia)) as (s & Es & _). destruct (after_le (Datatypes.S m) r 1 E ltac:(lia)) as (t & Et & _). unfold run. cbn in Es. rewrite Es. cbn [rbind].
  pose proof Et as Et'. cbn [AcgSpec.after] in Et'. rewrite Es in Et'. cbn [rbind] in Et'. rewrite Et'. cbn [rbind]. apply (cont_ends c m r S fuel 1 t Et E H).
Qed.
End General.

(** * Criteria below their quadratic majorants *)
Section Majorised.
Context {K : ofield} (N1 : (r1 : K) <> r0) (n : nat) (f : list K -> K) (g : list K -> list K) (q : list K -> K) (value : list K -> result K) (gradient : list K -> result (list K)) (search : algo K -> result (number K)) (type : update_type) (s0 : algo K).
Context (CI : criterion_is n value gradient search f g q) (MJ : majorised n f g q).
Add Ring KringAcg4 : (rth K).
Local Open Scope cr_scope.
Notation after := (after n value gradient search type s0).
Lemma no_increase k s x : after (S k) = Ok s -> solution s = Some x -> exists t y, after k = Ok t /\ solution t = Some y /\ le (f x) (f y).
Proof.
  intros E Ex. pose proof MJ as (G & F & Q & P). destruct (after_moves n f g value gradient search type s0 (ci_value _ _ _ _ _ _ _ CI) (ci_gradient _ _ _ _ _ _ _ CI) G k s E) as (t & Et & _ & _ & _ & M).
  destruct (after_sized n f g value gradient search type s0 (ci_value _ _ _ _ _ _ _ CI) (ci_gradient _ _ _ _ _ _ _ CI) G k t Et) as [[S1 _] _].
  destruct (M x Ex) as (y & d & a & s1 & Ey & _ & _ & _ & _ & Ld & D1 & G1 & Ea & ->). exists t, y. split; [exact Et|]. split; [exact Ey|]. destruct (S1 y Ey) as [Ly _].
  rewrite (ci_search _ _ _ _ _ _ _ CI s1 d (g y) D1 G1 Ld (G y Ly)) in Ea. injection Ea as Ea. pose proof (eqb_spec (q d) 0) as Z. destruct (eqb (q d) 0); [discriminate|]. injection Ea as Ea.
  unfold along. eapply le_trans; [apply F; rewrite ?map_length; assumption|]. rewrite Q by exact Ld. rewrite dot_scal_r by (rewrite G; congruence). rewrite (CritCalc.dot_comm (g y) d) by (rewrite G; congruence).
  set (p := CritModel.dot d (g y)) in *. assert (Hp : p = - (two * q d * a)).
  { rewrite <- Ea. assert (X : div (- div p two) (q d) * q d = - div p two) by (apply div_mul, Z). replace (two * q d * div (- div p two) (q d)) with (two * (div (- div p two) (q d) * q d)) by ring. rewrite X. pose proof (div_mul p two (two_neq N1)) as Y. rewrite <- Y at 1. ring. }
  apply le_sub. rewrite Hp. unfold two. match goal with |- le 0 ?e => replace e with (q d * (a * a)) by ring end. apply le_mul_pos; [apply P, Ld|apply square_nonneg].
Qed.
End Majorised.

(** * Strictly convex quadratic criteria *)
Section Strict.
Context {K : ofield} (N1 : (r1 : K) <> r0) (n : nat) (f : list K -> K) (g : list K -> list K) (q : list K -> K) (QF : quadratic_function n f g q) (DQ : definite n q).
Context (value : list K -> result K) (gradient : list K -> result (list K)) (search : algo K -> result (number K)) (CI : criterion_is n value gradient search f g q) (s0 : algo K).
Add Ring KringAcg5 : (rth K).
Local Open Scope cr_scope.
Notation A := (matrix n g).
Notation b := (rhs n g).
Notation At := (at_step n A (@idm K) b (vec (zero n))).
Notation X k := (s_x (At k)).
Notation R k := (s_r (At k)).
Notation D k := (s_d (At k)).
Notation delta k := (s_delta (At k)).
Notation dotv := (@CgModel.dot K n).
Notation dotl := (@CritModel.dot K).
Implicit Type P : nat -> norm K -> Prop.
Notation after := (after n value gradient search FletcherReeves s0).
Notation J := (J n f g).
Notation reads := (reads n).
Lemma finite_J k s x : after k = Ok s -> solution s = Some x -> J k s /\ reads x (X k) /\ forall j, (j < k)%nat -> delta j <> 0.
Proof.
  intros E Ex. destruct (after_spec N1 n f g q QF DQ value gradient search CI s0 k s E) as [[H P]|[H _]]; [|congruence]. split; [exact H|]. split; [|exact P].
  destruct H as (_ & _ & (y & Ey & Hy & _) & _). rewrite Ex in Ey. injection Ey as <-. exact Hy.
Qed.
Lemma zero_gradient x k : reads x (X k) -> (g x = repeat 0 n <-> delta k = 0).
Proof.
  intros H. pose proof QF as (G & _ & _). pose proof H as [Lx _]. split; intros Z.
  - apply null_delta. intros i Hi. pose proof (gradient_R N1 n f g q QF x k i H Hi) as E. rewrite Z in E. change (repeat 0 n) with (@zero K n) in E. rewrite nth_zero in E.
    assert (E' : two * R k i = 0) by (transitivity (- - (two * R k i)); [ring|rewrite <- E; ring]). apply mul_zero in E'. destruct E' as [E'|E']; [|exact E']. exfalso. exact (two_neq N1 E').
  - apply (array_ext n); [apply G, Lx|apply repeat_length|]. intros i Hi. rewrite (gradient_R N1 n f g q QF x k i H Hi). change (repeat 0 n) with (@zero K n). rewrite nth_zero.
    rewrite (delta_null n A (@idm K) b (vec (zero n)) (SM n) k Z i Hi). ring.
Qed.
Lemma solution_at k : (forall j, (j < k)%nat -> delta j <> 0) -> exists s x, after k = Ok s /\ solution s = Some x /\ reads x (X k).
Proof. intros P. destruct (after_fine N1 n f g q QF DQ value gradient search CI s0 k P) as (s & E & H). pose proof H as (_ & _ & (x & Ex & Hx & _) & _). eauto. Qed.
Lemma finite_iff k s : after k = Ok s -> (solution s <> None <-> forall j t y, (j < k)%nat -> after j = Ok t -> solution t = Some y -> g y <> repeat 0 n).
Proof.
  intros E. split.
  - intros Nn j t y Hj Et Ey. destruct (solution s) as [x|] eqn:Ex; [|contradiction]. destruct (finite_J k s x E Ex) as (_ & _ & P). destruct (finite_J j t y Et Ey) as (_ & Hy & _). rewrite (zero_gradient y j Hy). apply P, Hj.
  - intros H Z. destruct (after_spec N1 n f g q QF DQ value gradient search CI s0 k s E) as [[(_ & _ & (y & Ey & _) & _) _]|[_ (j & Hj & Zj)]]; [congruence|].
    destruct (dec_delta n g k) as [P|(i & Hi & Zi & P)]; [exact (P j Hj Zj)|]. destruct (solution_at i P) as (t & y & Et & Ey & Hy). apply (H i t y Hi Et Ey). apply (zero_gradient y i Hy), Zi.
Qed.
Lemma critical_minimum x : length x = n -> g x = repeat 0 n -> minimum n f x.
Proof.
  intros Lx Z. split; [exact Lx|]. intros y Ly. pose proof QF as (G & F & _). set (h := lst n (fun i => nth i y 0 - nth i x 0)). assert (Lh : length h = n) by apply lst_length.
  assert (Ey : map2 radd x h = y). { apply (array_ext n); [rewrite map2_length; congruence|exact Ly|]. intros i Hi. rewrite nth_map2 by lia. unfold h. rewrite nth_lst by exact Hi. ring. }
  rewrite <- Ey, (F x h Lx Lh). assert (E0 : dotl (g x) h = 0). { rewrite Z. rewrite (dot_vec n) by (auto using repeat_length). apply CgProofs.dot_null. intros i Hi. apply nth_zero. }
  rewrite E0. apply le_sub. replace (f x + 0 + q h - f x) with (q h) by ring. destruct (list_eq_dec (@eq_dec K) h (repeat 0 n)) as [Eh|Eh]; [|apply lt_asym, DQ; assumption].
  rewrite (quadratic_part N1 n f g q QF h Lh). rewrite CgProofs.dot_null; [apply le_refl|]. intros i Hi. unfold vec. rewrite Eh. apply nth_zero.
Qed.
Lemma exact_solution s x : after n = Ok s -> solution s = Some x -> g x = repeat 0 n /\ minimum n f x.
Proof.
  intros E Ex. destruct (finite_J n s x E Ex) as (_ & Hx & P). assert (Z : g x = repeat 0 n).
  { destruct (some_zero N1 n f g q QF DQ) as (j & Hj & Zj & _). destruct (Nat.eq_dec j n) as [->|]; [|exfalso; apply (P j); [lia|exact Zj]]. apply (zero_gradient x n Hx), Zj. }
  split; [exact Z|]. apply critical_minimum; [apply Hx|exact Z].
Qed.
Lemma nan_after k t y s : after k = Ok t -> solution t = Some y -> after (S k) = Ok s -> solution s = None -> minimum n f y.
Proof.
  intros Et Ey Es Zs. destruct (finite_J k t y Et Ey) as (H & Hy & P). apply critical_minimum; [apply Hy|]. apply (zero_gradient y k Hy). destruct (eq_dec (delta k) 0) as [Z|Z]; [exact Z|]. exfalso.
  destruct (solution_at (S k)) as (s' & x & Es' & Ex & _). { intros j Hj. destruct (Nat.eq_dec j k) as [->|]; [exact Z|apply P; lia]. } rewrite Es in Es'. injection Es' as <-. congruence.
Qed.
Lemma direction_D j s d x : after (S j) = Ok s -> solution s = Some x -> descent s = Some d -> reads d (fun i => two * D j i).
Proof. intros E Ex Ed. destruct (finite_J (S j) s x E Ex) as ((_ & _ & _ & d' & x' & Ed' & Hd & _) & _). rewrite Ed in Ed'. injection Ed' as <-. exact Hd. Qed.
Lemma dot_reads u v U V : reads u U -> reads v V -> dotl u v = dotv U V.
Proof. intros [Lu Eu] [Lv Ev]. rewrite (dot_vec n) by assumption. apply CgProofs.dot_ext; assumption. Qed.
Lemma gradient_reads x k : reads x (X k) -> reads (g x) (fun i => - (two * R k i)).
Proof. intros H. pose proof QF as (G & _ & _). split; [apply G, H|]. intros i Hi. apply (gradient_R N1 n f g q QF x k i H Hi). Qed.
Lemma dotv_scal (c e : K) u v : dotv (fun i => c * u i) (fun i => e * v i) = c * e * dotv u v.
Proof. unfold CgModel.dot. rewrite <- sum_mul_l. apply sum_ext. intros; ring. Qed.
Lemma orthogonal_direction j k s x t y d : (j < k)%nat -> after k = Ok s -> solution s = Some x -> after (S j) = Ok t -> solution t = Some y -> descent t = Some d -> dotl (g x) d = 0.
Proof.
  intros L E Ex Et Ey Ed. destruct (finite_J k s x E Ex) as (_ & Hx & P). pose proof (direction_D j t d y Et Ey Ed) as Hd. pose proof (gradient_reads x k Hx) as Hg.
  rewrite (dot_reads _ _ _ _ Hg Hd). destruct (orthogonal_ok n A (@idm K) b (vec (zero n)) (SA N1 n f g q QF DQ) (SM n) k P) as (P1 & _).
  transitivity (dotv (fun i => - two * R k i) (fun i => two * D j i)); [apply CgProofs.dot_ext; intros; ring|]. rewrite dotv_scal, P1 by lia. ring.
Qed.
Lemma orthogonal_gradient j k s x t y : (j < k)%nat -> after k = Ok s -> solution s = Some x -> after j = Ok t -> solution t = Some y -> dotl (g x) (g y) = 0.
Proof.
  intros L E Ex Et Ey. destruct (finite_J k s x E Ex) as (_ & Hx & P). destruct (finite_J j t y Et Ey) as (_ & Hy & _).
  rewrite (dot_reads _ _ _ _ (gradient_reads x k Hx) (gradient_reads y j Hy)). destruct (orthogonal_ok n A (@idm K) b (vec (zero n)) (SA N1 n f g q QF DQ) (SM n) k P) as (_ & _ & _ & P4).
  transitivity (dotv (fun i => - two * R k i) (fun i => - two * R j i)); [apply CgProofs.dot_ext; intros; ring|]. rewrite dotv_scal.
  rewrite (CgProofs.dot_ext n (R k) (R j) (R k) (CgModel.apply n (@idm K) (R j))); [|reflexivity|intros i Hi; symmetry; apply apply_idm, Hi]. rewrite P4 by lia. ring.
Qed.
Lemma conjugate j k s x c t y d : (j < k)%nat -> after (S k) = Ok s -> solution s = Some x -> descent s = Some c -> after (S j) = Ok t -> solution t = Some y -> descent t = Some d -> q (map2 radd c d) = q c + q d.
Proof.
  intros L E Ex Ec Et Ey Ed. destruct (finite_J (S k) s x E Ex) as (_ & Hx & P). pose proof (direction_D k s c x E Ex Ec) as Hc. pose proof (direction_D j t d y Et Ey Ed) as Hd.
  destruct (orthogonal_ok n A (@idm K) b (vec (zero n)) (SA N1 n f g q QF DQ) (SM n) k) as (_ & _ & P3 & _); [intros; apply P; lia|].
  pose proof Hc as [Lc Ec']. pose proof Hd as [Ld Ed']. assert (Ls : length (map2 radd c d) = n) by (rewrite map2_length; congruence).
  rewrite (quadratic_part N1 n f g q QF _ Ls), (quadratic_D N1 n f g q QF c k Hc), (quadratic_D N1 n f g q QF d j Hd).
  rewrite (CgProofs.dot_ext n (vec (map2 radd c d)) (CgModel.apply n A (vec (map2 radd c d))) (fun i => two * D k i + two * D j i) (fun i => two * CgModel.apply n A (D k) i + two * CgModel.apply n A (D j) i)).
  - assert (Z : dotv (D k) (CgModel.apply n A (D j)) = 0) by (apply P3; lia). assert (Z' : dotv (D j) (CgModel.apply n A (D k)) = 0) by (rewrite (apply_sym n A) by apply (SA N1 n f g q QF DQ); exact Z).
    transitivity (two * two * (dotv (D k) (CgModel.apply n A (D k)) + dotv (D k) (CgModel.apply n A (D j)) + dotv (D j) (CgModel.apply n A (D k)) + dotv (D j) (CgModel.apply n A (D j)))); [|rewrite Z, Z'; ring].
    unfold CgModel.dot. rewrite <- !sum_add, <- sum_mul_l. apply sum_ext. intros; ring.
  - intros i Hi. unfold vec at 1. rewrite nth_map2 by lia. rewrite Ec', Ed' by exact Hi. reflexivity.
  - intros i Hi. rewrite (apply_ext n A _ (fun i => two * D k i + two * D j i)). + rewrite CgProofs.apply_add, !CgProofs.apply_scal. reflexivity. + intros l Hl. unfold vec at 1. rewrite nth_map2 by lia. rewrite Ec', Ed' by exact Hl. reflexivity.
Qed.
Lemma moved_eq x c : forall ds h, length x = n -> length h = n -> dotl (g x) h = 0 -> (forall d, In d ds -> length d = n /\ dotl (g x) d = 0) -> exists h', moved (map2 radd x h) c ds = map2 radd x h' /\ length h' = n /\ dotl (g x) h' = 0.
Proof.
  pose proof QF as (G & _ & _). induction c as [|a c IH]; intros ds h Lx Lh Zh Hd; [exists h; auto|]. destruct ds as [|d ds]; [exists h; auto|]. cbn [moved]. unfold along. rewrite <- map2_assoc.
  destruct (Hd d (or_introl eq_refl)) as [Ld Zd]. apply IH; [exact Lx| | |intros e He; apply Hd; right; exact He].
  - rewrite map2_length; rewrite ?map_length; congruence.
  - rewrite dot_add_r by (rewrite ?map_length, G; congruence). rewrite dot_scal_r by (rewrite G; congruence). rewrite Zh, Zd. ring.
Qed.
Lemma optimal_moved k s x c ds : after k = Ok s -> solution s = Some x -> (forall d, In d ds -> exists j t, (j < k)%nat /\ after (S j) = Ok t /\ descent t = Some d) -> le (f x) (f (moved x c ds)).
Proof.
  intros E Ex Hd. pose proof QF as (G & F & _). destruct (finite_J k s x E Ex) as (_ & Hx & P). pose proof Hx as [Lx _].
  assert (E0 : map2 radd x (zero n) = x). { apply (array_ext n); [rewrite map2_length; rewrite ?zero_length; congruence|exact Lx|]. intros i Hi. rewrite nth_map2 by (rewrite ?zero_length; lia). rewrite nth_zero. ring. }
  destruct (moved_eq x c ds (zero n) Lx (zero_length n)) as (h & Eh & Lh & Zh).
  - rewrite (CritCalc.dot_comm (g x)) by (rewrite G by exact Lx; symmetry; apply zero_length). rewrite (dot_vec n) by (auto using zero_length). apply CgProofs.dot_null. intros i Hi. apply nth_zero.
  - intros d Hi. destruct (Hd d Hi) as (j & t & Hj & Et & Ed).
    destruct (solution_at (S j)) as (t' & y & Et' & Ey & _); [intros; apply P; lia|]. rewrite Et in Et'. injection Et' as <-. split; [apply (direction_D j t d y Et Ey Ed)|]. apply (orthogonal_direction j k s x t y d Hj E Ex Et Ey Ed).
  - rewrite E0 in Eh. rewrite Eh, (F x h Lx Lh), Zh. apply le_sub. replace (f x + 0 + q h - f x) with (q h) by ring. destruct (list_eq_dec (@eq_dec K) h (repeat 0 n)) as [E'|E']; [|apply lt_asym, DQ; assumption].
    rewrite (quadratic_part N1 n f g q QF h Lh). rewrite CgProofs.dot_null; [apply le_refl|]. intros i Hi. unfold vec. rewrite E'. apply nth_zero.
Qed.
Lemma decreases k s x t y : after (S k) = Ok s -> solution s = Some x -> after k = Ok t -> solution t = Some y -> lt (f x) (f y).
Proof.
  intros E Ex Et Ey. pose proof QF as (G & F & Q). destruct (finite_J (S k) s x E Ex) as (_ & Hx & P). destruct (finite_J k t y Et Ey) as (_ & Hy & _).
  destruct (after_moves n f g value gradient search FletcherReeves s0 (ci_value _ _ _ _ _ _ _ CI) (ci_gradient _ _ _ _ _ _ _ CI) G k s E) as (t' & Et' & _ & _ & _ & M). rewrite Et in Et'. injection Et' as <-.
  destruct (M x Ex) as (y' & d & a & s1 & Ey' & _ & _ & Ed & _ & Ld & D1 & G1 & Ea & Exy). rewrite Ey in Ey'. injection Ey' as <-. pose proof Hy as [Ly _].
  rewrite (ci_search _ _ _ _ _ _ _ CI s1 d (g y) D1 G1 Ld (G y Ly)) in Ea. injection Ea as Ea. pose proof (eqb_spec (q d) 0) as Z. destruct (eqb (q d) 0); [discriminate|]. injection Ea as Ea.
  rewrite Exy. unfold along. rewrite F by (rewrite ?map_length; assumption). rewrite Q by exact Ld. rewrite dot_scal_r by (rewrite G; congruence). rewrite (CritCalc.dot_comm (g y) d) by (rewrite G; congruence).
  pose proof (direction_D k s d x E Ex Ed) as Hd. assert (Np : dotl d (g y) <> 0).
  { rewrite (dot_reads _ _ _ _ Hd (gradient_reads y k Hy)). destruct (orthogonal_ok n A (@idm K) b (vec (zero n)) (SA N1 n f g q QF DQ) (SM n) k) as (_ & P2 & _); [intros; apply P; lia|].
    rewrite (CgProofs.dot_ext n _ _ (fun i => two * D k i) (fun i => - two * R k i)) by (intros; ring). rewrite dotv_scal, CgProofs.dot_comm, P2 by lia.
    apply mul_neq; [|apply P; lia]. intros Z2. apply (two2 N1). transitivity (- (two * - two) : K); [ring|rewrite Z2; ring]. }
  set (p := dotl d (g y)) in *. assert (Hp : p = - (two * q d * a)).
  { rewrite <- Ea. assert (X0 : div (- div p two) (q d) * q d = - div p two) by (apply div_mul, Z). replace (two * q d * div (- div p two) (q d)) with (two * (div (- div p two) (q d) * q d)) by ring. rewrite X0. pose proof (div_mul p two (two_neq N1)) as Y. rewrite <- Y at 1. ring. }
  apply lt_sub. assert (Na : a <> 0). { intros ->. apply Np. rewrite Hp. ring. }
  replace (f y - (f y + a * p + a * a * q d)) with (q d * (a * a)) by (rewrite Hp; unfold two; ring). apply (lt_mul K); [|apply square_pos, Na].
  apply DQ; [exact Ld|]. intros E0. apply Z. rewrite E0. rewrite (quadratic_part N1 n f g q QF) by apply repeat_length. apply CgProofs.dot_null. intros i Hi. apply nth_zero.
Qed.
Lemma gtol_ends (c : stop K) e : cond_all c = false -> gtol c = Some e -> lt 0 e -> exists m r, (m <= n)%nat /\ after (S m) = Ok r /\ stops c r = true.
Proof.
  intros Hc He P. destruct (some_zero N1 n f g q QF DQ) as (j & Hj & Zj & Pj). destruct (after_fine N1 n f g q QF DQ value gradient search CI s0 j Pj) as (s & Es & H).
  destruct (step_last N1 n f g q QF value gradient search CI j s H Pj Zj) as (r & Er & _ & _ & _ & Gn & _). exists j, r. split; [exact Hj|]. split; [cbn [AcgSpec.after]; rewrite Es; exact Er|].
  unfold stops. rewrite Hc. unfold tests. rewrite He, Gn. cbn [less]. rewrite !existsb_app. cbn. unfold lt in P. rewrite P. rewrite !orb_true_r. reflexivity.
Qed.
End Strict.

(** * Criteria made of elements *)
Section Criteria.
Context {K : ofield} (N1 : (r1 : K) <> r0) (n : nat) (es : list (element K)).
Add Ring KringAcg6 : (rth K).
Local Open Scope cr_scope.
Notation array := (list K).
Notation dotl := (@CritModel.dot K).
Implicit Type P : nat -> norm K -> Prop.
Lemma scal_one (x : array) : map (fun t => 1 * t) x = x.
Proof. induction x as [|a x IH]; [reflexivity|]. cbn. rewrite IH. f_equal. ring. Qed.
(** one element *)
Lemma element_below P m id x h e O : nth_error es id = Some e -> is_matrix m n O (e_op e) -> (forall N, P m N -> below_quadratic m N) -> P m (e_norm e) -> match e_data e with None => True | Some d => length d = m end -> length x = n -> length h = n ->
  exists v v' w g, value es (El id) x = Ok v /\ value es (El id) (map2 radd x h) = Ok v' /\ gradient es (El id) x = Ok g /\ length g = n /\ (y <- o_call (e_op e) h ;; Ok (n_call (plain_norm (e_norm e)) y)) = Ok w /\
    le v' (v + dotl g h + w).
Proof.
  intros Ee M Hb Hp D Lx Lh. destruct (Hb _ Hp) as (B1 & B2 & _ & _). pose proof M as [M1 M2]. pose proof (misfit_length m n O (e_data e) x D) as L. set (y := match e_data e with Some d => map2 rsub (matvec m n O x) d | None => matvec m n O x end) in *.
  assert (Emx : misfit e x = Ok y) by (apply (misfit_linear m n O e x M D Lx)).
  assert (Emh : misfit e (map2 radd x h) = Ok (map2 radd y (matvec m n O h))). { rewrite (misfit_linear m n O e _ M D) by (rewrite map2_length; congruence). f_equal. unfold y. rewrite matvec_add by congruence. destruct (e_data e); [|reflexivity]. apply minus_add; rewrite !matvec_length; congruence. }
  exists (n_call (e_norm e) y), (n_call (e_norm e) (map2 radd y (matvec m n O h))), (n_call (plain_norm (e_norm e)) (matvec m n O h)), (matvec n m (transposed O) (n_diff (e_norm e) y)).
  cbn [value gradient]. rewrite Ee. unfold element_value, element_gradient. rewrite Emx, Emh. cbn [rbind]. rewrite (M1 h Lh). cbn [rbind]. split; [reflexivity|]. split; [reflexivity|]. split; [apply M2, B1, L|]. split; [apply matvec_length|]. split; [reflexivity|].
  eapply le_trans; [apply B2; [exact L|apply matvec_length]|]. rewrite (dot_matvec m n O) by (auto || (apply B1, L)). apply le_refl.
Qed.
Lemma below_sums P : (forall m N, P m N -> below_quadratic m N) -> forall l x h acc acc' w, everyl (linear_element P n) es l -> Forall (fun c => exists id, c = El id) l -> length x = n -> length h = n -> (match w with None => l <> [] | Some w => length w = n end) ->
  le acc' (acc + match w with Some w => dotl w h | None => 0 end) -> exists v v' t g, values es l x acc = Ok v /\ values es l (map2 radd x h) acc' = Ok v' /\ gradients es l x w = Ok g /\ length g = n /\ optimal_sum es l h = Ok t /\ le v' (v + dotl g h + t).
Proof.
  intros HP. induction l as [|c l IH]; intros x h acc acc' w E Fl Lx Lh Hw Ha.
  - destruct w as [w|]; [|congruence]. exists acc, acc', 0, w. repeat split; try assumption. replace (acc + dotl w h + 0) with (acc + dotl w h) by ring. exact Ha.
  - rewrite everyl_cons in E. destruct E as [E1 E2]. apply Forall_cons_iff in Fl. destruct Fl as [[id ->] Fl']. cbn in E1. destruct (nth_error es id) as [e|] eqn:Ee; [|tauto]. destruct E1 as (m & O & M & Hp & D).
    destruct (element_below P m id x h e O Ee M (HP m) Hp D Lx Lh) as (v & v' & t & g & Ev & Ev' & Eg & Lg & Et & Hle).
    set (w' := match w with Some w => map2 radd w g | None => g end).
    assert (Lw : length w' = n) by (unfold w'; destruct w as [w|]; [rewrite map2_length; congruence|exact Lg]).
    assert (Ew : match w with Some w => plus w g | None => Ok g end = Ok w') by (unfold w'; destruct w as [w|]; [apply plus_ok; congruence|reflexivity]).
    assert (Dw : dotl w' h = match w with Some w => dotl w h | None => 0 end + dotl g h). { unfold w'. destruct w as [w|]; [apply CritCalc.dot_add_l; congruence|ring]. }
    destruct (IH x h (acc + v + t) (acc' + v') (Some w') E2 Fl' Lx Lh Lw) as (z & z' & s & g' & Ez & Ez' & Eg' & Lg' & Es & Hz).
    + rewrite Dw. eapply le_trans; [apply CritCalc.le_add; [exact Ha|exact Hle]|]. apply le_lt_eq. right. ring.
    + rewrite values_acc in Ez. destruct (values es l x 0) as [u|] eqn:Eu; [|discriminate]. cbn [rbind] in Ez. injection Ez as <-. exists (acc + v + u), z', (t + s), g'. rewrite !values_cons, gradients_cons, Ev, Ev', Eg. cbn [rbind]. rewrite Ew. cbn [rbind]. rewrite (values_acc es l x (acc + v)), Eu. cbn [rbind].
      split; [reflexivity|]. split; [exact Ez'|]. split; [exact Eg'|]. split; [exact Lg'|]. cbn [optimal_sum]. rewrite Ee. destruct (o_call (e_op e) h) as [y|]; [|discriminate]. cbn [rbind] in *. injection Et as <-. rewrite Es. cbn [rbind]. split; [reflexivity|].
      replace (acc + v + u + dotl g' h + (n_call (plain_norm (e_norm e)) y + s)) with (acc + v + n_call (plain_norm (e_norm e)) y + u + dotl g' h + s) by ring. exact Hz.
Qed.
Lemma optimal_sum_scal P : (forall m N, P m N -> below_quadratic m N) -> forall l a h, everyl (linear_element P n) es l -> Forall (fun c => exists id, c = El id) l -> length h = n ->
  exists t, optimal_sum es l h = Ok t /\ optimal_sum es l (map (fun u => a * u) h) = Ok (a * a * t) /\ le 0 t.
Proof.
  intros HP. induction l as [|c l IH]; intros a h E Fl Lh; [exists 0; repeat split; [cbn; f_equal; ring|apply le_refl]|]. rewrite everyl_cons in E. destruct E as [E1 E2]. apply Forall_cons_iff in Fl. destruct Fl as [[id ->] Fl']. cbn in E1. destruct (nth_error es id) as [e|] eqn:Ee; [|tauto].
  destruct E1 as (m & O & [M1 M2] & Hp & D). destruct (HP m _ Hp) as (_ & _ & B3 & B4). destruct (IH a h E2 Fl' Lh) as (t & Et & Et' & Pt). exists (n_call (plain_norm (e_norm e)) (matvec m n O h) + t). cbn [optimal_sum]. rewrite Ee, (M1 h Lh), (M1 (map _ h)) by (rewrite map_length; exact Lh). cbn [rbind]. rewrite Et, Et'. cbn [rbind].
  split; [reflexivity|]. split; [f_equal; rewrite matvec_scal by exact Lh; rewrite B3 by apply matvec_length; ring|]. apply le_add_pos; [apply B4, matvec_length|exact Pt].
Qed.
Lemma criterion_is_ok P l : (forall m N, P m N -> below_quadratic m N) -> every (linear_element P n) es (Cr l) -> flat l ->
  criterion_is n (CritSpec.value es (Cr l)) (CritSpec.gradient es (Cr l)) (search_optimal es l) (crit_value es l) (crit_gradient es l) (crit_quadratic es l) /\ majorised n (crit_value es l) (crit_gradient es l) (crit_quadratic es l).
Proof.
  intros HP E Fl. rewrite every_Cr in E. destruct E as [Nn E].
  assert (B : forall x h, length x = n -> length h = n -> exists v v' t g, CritSpec.value es (Cr l) x = Ok v /\ CritSpec.value es (Cr l) (map2 radd x h) = Ok v' /\ CritSpec.gradient es (Cr l) x = Ok g /\ length g = n /\ optimal_sum es l h = Ok t /\ le v' (v + dotl g h + t)).
  { intros x h Lx Lh. apply (below_sums P HP l x h 0 0 None E Fl Lx Lh Nn). apply le_lt_eq. right. ring. }
  split; [split|split; [|split; [|split]]].
  - intros x Lx. destruct (B x x Lx Lx) as (v & v' & t & g & Ev & _). unfold crit_value. rewrite Ev. reflexivity.
  - intros x Lx. destruct (B x x Lx Lx) as (v & v' & t & g & _ & _ & Eg & _). unfold crit_gradient. rewrite Eg. reflexivity.
  - intros s d v Ed Eg Ld Lv. unfold search_optimal. rewrite Ed, Eg. unfold optimal_step, crit_quadratic. destruct (B d d Ld Ld) as (_ & _ & t & _ & _ & _ & _ & _ & Et & _). rewrite Et. reflexivity.
  - intros x Lx. destruct (B x x Lx Lx) as (v & v' & t & g & _ & _ & Eg & Lg & _). unfold crit_gradient. rewrite Eg. exact Lg.
  - intros x h Lx Lh. destruct (B x h Lx Lh) as (v & v' & t & g & Ev & Ev' & Eg & Lg & Et & H). unfold crit_value, crit_gradient, crit_quadratic. rewrite Ev, Ev', Eg, Et. exact H.
  - intros a h Lh. destruct (optimal_sum_scal P HP l a h E Fl Lh) as (t & Et & Et' & _). unfold crit_quadratic. rewrite Et, Et'. reflexivity.
  - intros h Lh. destruct (optimal_sum_scal P HP l 0 h E Fl Lh) as (t & Et & _ & Pt). unfold crit_quadratic. rewrite Et. exact Pt.
Qed.
Lemma huber_below m (delta : K) : le 0 delta -> below_quadratic m (make_huber (Some delta)).
Proof.
  intros Hd. unfold below_quadratic, plain_norm. cbn [make_huber n_kind n_call n_diff hnorm dhnorm make_norm2]. split; [intros y Ly; unfold dhuber; rewrite map_length; exact Ly|]. split; [|split].
  - intros y h Ly Lh. assert (L : length y = length h) by congruence. clear Ly Lh m. revert h L. induction y as [|a y IH]; intros [|b h] L; try discriminate; [cbn; apply le_lt_eq; right; unfold norm2; cbn; ring|].
    cbn [map2 huber map total dhuber]. fold (huber delta y) (huber delta (map2 radd y h)) (dhuber delta y). unfold norm2, CritModel.dot. cbn [map2 total]. fold (dotl (dhuber delta y) h) (dotl h h). fold (norm2 h). destruct (huber_bounds delta a b Hd) as [_ H].
    specialize (IH h ltac:(cbn in L; lia)). pose proof (CritCalc.le_add _ _ _ _ H IH) as H2. apply le_sub. apply le_sub in H2. match goal with H : le 0 ?u |- le 0 ?v => replace v with u by ring end. exact H2.
  - intros a y Ly. unfold norm2. rewrite CritCalc.dot_scal_l by (rewrite map_length; reflexivity). rewrite dot_scal_r by reflexivity. ring.
  - intros h _. apply dot_nonneg.
Qed.
Lemma quadratic2_below m (N : norm K) : quadratic2 m N -> (forall h, length h = m -> le 0 (n_call N h)) -> below_quadratic m N.
Proof.
  intros [Hk [Q Q2]] P. unfold below_quadratic, plain_norm. rewrite Hk. split; [intros y Ly; apply (Q y y Ly Ly)|]. split; [|split; [exact Q2|exact P]].
  intros y h Ly Lh. destruct (Q y h Ly Lh) as [_ E]. rewrite E. apply le_refl.
Qed.
Lemma quadratic_criterion_ok l : every (linear_element quadratic2 n) es (Cr l) -> flat l -> criterion_is n (CritSpec.value es (Cr l)) (CritSpec.gradient es (Cr l)) (search_optimal es l) (crit_value es l) (crit_gradient es l) (crit_quadratic es l) /\
  quadratic_function n (crit_value es l) (crit_gradient es l) (crit_quadratic es l).
Proof.
  intros E Fl. rewrite every_Cr in E. destruct E as [Nn E].
  assert (T : forall a h, length h = n -> exists t, optimal_sum es l h = Ok t /\ optimal_sum es l (map (fun u => a * u) h) = Ok (a * a * t)).
  { clear Nn. intros a h Lh. induction l as [|c l' IH]; [exists 0; split; [reflexivity|cbn; f_equal; ring]|]. rewrite everyl_cons in E. destruct E as [E1 E2]. apply Forall_cons_iff in Fl. destruct Fl as [[id ->] Fl']. cbn in E1. destruct (nth_error es id) as [e|] eqn:Ee; [|tauto].
    destruct E1 as (m & O & [M1 M2] & [Hk [_ Q2]] & D). destruct (IH E2 Fl') as (t & Et & Et'). exists (n_call (e_norm e) (matvec m n O h) + t). cbn [optimal_sum]. rewrite Ee, (M1 h Lh), (M1 (map _ h)) by (rewrite map_length; exact Lh). unfold plain_norm. rewrite Hk. cbn [rbind]. rewrite Et, Et'. cbn [rbind].
    split; [reflexivity|]. f_equal. rewrite matvec_scal by exact Lh. rewrite Q2 by apply matvec_length. ring. }
  assert (B : forall x h, length x = n -> length h = n -> exists v v' t g, CritSpec.value es (Cr l) x = Ok v /\ CritSpec.value es (Cr l) (map2 radd x h) = Ok v' /\ CritSpec.gradient es (Cr l) x = Ok g /\ length g = n /\ optimal_sum es l h = Ok t /\ v' = v + dotl g h + t).
  { intros x h Lx Lh. destruct (T 1 h Lh) as (t & Et & _). destruct (value_step n es l x h 1 0 t E Lx Lh Et None Nn) as (g & v & Eg & Lg & Ev & Ev'). rewrite scal_one in Ev'. exists v, (v + 1 * (dotl h g - 0) + 1 * 1 * t), t, g. repeat split; try assumption. rewrite (CritCalc.dot_comm g h) by congruence. ring. }
  split; [split|split; [|split]].
  - intros x Lx. destruct (B x x Lx Lx) as (v & v' & t & g & Ev & _). unfold crit_value. rewrite Ev. reflexivity.
  - intros x Lx. destruct (B x x Lx Lx) as (v & v' & t & g & _ & _ & Eg & _). unfold crit_gradient. rewrite Eg. reflexivity.
  - intros s d v Ed Eg Ld Lv. unfold search_optimal. rewrite Ed, Eg. unfold optimal_step, crit_quadratic. destruct (T 0 d Ld) as (t & Et & _). rewrite Et. reflexivity.
  - intros x Lx. destruct (B x x Lx Lx) as (v & v' & t & g & _ & _ & Eg & Lg & _). unfold crit_gradient. rewrite Eg. exact Lg.
  - intros x h Lx Lh. destruct (B x h Lx Lh) as (v & v' & t & g & Ev & Ev' & Eg & Lg & Et & H). unfold crit_value, crit_gradient, crit_quadratic. rewrite Ev, Ev', Eg, Et. exact H.
  - intros a h Lh. destruct (T a h Lh) as (t & Et & Et'). unfold crit_quadratic. rewrite Et, Et'. reflexivity.
Qed.
End Criteria.

(** * Runs *)
Section Again.
Context {K : ofield} (n : nat) (value : list K -> result K) (gradient : list K -> result (list K)) (search : algo K -> result (number K)) (type : update_type).
Context (HS : forall s t, solution s = solution t -> grad s = grad t -> descent s = descent t -> crit s = crit t -> search s = search t).
Definition same (s t : algo K) : Prop :=
  iter_ s = iter_ t /\ solution s = solution t /\ crit s = crit t /\ first_crit s = first_crit t /\ (iter_ s <> 0 -> grad s = grad t /\ grad_norm s = grad_norm t /\ descent s = descent t /\ last_crit s = last_crit t).
Notation iterate := (iterate value gradient search type).
Lemma same_iterate s t : same s t -> match iterate s, iterate t with Ok s', Ok t' => same s' t' /\ iter_ s' <> 0 | Raise e, Raise e' => e = e' | _, _ => False end.
Proof.
  intros (I & X & C & F & H). unfold AcgModel.iterate, update_gradient. rewrite X. destruct (evaluate gradient (solution t)) as [v|]; [|reflexivity]. cbn [rbind].
  assert (D : match update_descent type (update_gradient_norm (set_gradient s v)), update_descent type (update_gradient_norm (set_gradient t v)) with
    | Ok s', Ok t' => iter_ s' = iter_ t' /\ solution s' = solution t' /\ crit s' = crit t' /\ first_crit s' = first_crit t' /\ grad s' = grad t' /\ grad_norm s' = grad_norm t' /\ descent s' = descent t' | Raise e, Raise e' => e = e' | _, _ => False end).
  { unfold update_descent, update_gradient_norm. cbn [set_gradient set_gradient_norm iter_ grad grad_norm solution descent crit last_grad_norm]. rewrite I. destruct (Nat.eqb_spec (iter_ t) 0) as [Z|Z].
    - cbn. rewrite X. repeat split; assumption.
    - rewrite <- I in Z. destruct (H Z) as (H1 & H2 & H3 & H4). destruct type; [|reflexivity]. unfold update. cbn [rbind grad_norm last_grad_norm set_gradient_norm set_gradient]. rewrite H2. cbn. rewrite H3, X. repeat split; assumption. }
  destruct (update_descent type (update_gradient_norm (set_gradient s v))) as [s1|], (update_descent type (update_gradient_norm (set_gradient t v))) as [t1|]; try contradiction; [|exact D]. destruct D as (D1 & D2 & D3 & D4 & D5 & D6 & D7). cbn [rbind].
  unfold update_solution. rewrite (HS s1 t1) by assumption. destruct (search t1) as [a|]; [|reflexivity]. cbn [rbind]. rewrite D2, D7. unfold update_criterion. cbn [set_solution solution]. destruct (evaluate value _) as [w|]; [|reflexivity]. cbn.
  split; [|discriminate]. unfold same. cbn. rewrite D1, D3, D4, D5, D6, D7. repeat split.
Qed.
Lemma same_stops c s t : same s t -> iter_ s <> 0 -> stops c s = stops c t.
Proof. intros (I & X & C & F & H) Z. destruct (H Z) as (H1 & H2 & H3 & H4). unfold stops, tests, residual. rewrite I, C, F, H2, H4. reflexivity. Qed.
Definition outcome (r : algo K) := (iter_ r, solution r, crit r).
Lemma same_cont c fuel : forall s t, same s t -> iter_ s <> 0 -> (r <- cont value gradient search type fuel c s ;; Ok (option_map outcome r)) = (r <- cont value gradient search type fuel c t ;; Ok (option_map outcome r)).
Proof.
  induction fuel as [|fuel IH]; intros s t H Z; cbn [cont]; rewrite (same_stops c s t H Z); destruct (stops c t); try reflexivity; try (destruct H as (I & X & C & _); cbn; unfold outcome; rewrite I, X, C; reflexivity).
  pose proof (same_iterate s t H) as E. destruct (iterate s) as [s'|], (iterate t) as [t'|]; try contradiction; [|cbn; f_equal; exact E]. cbn [rbind]. apply IH; apply E.
Qed.
Lemma run_again fuel c s t : (r <- run n value gradient search type fuel c s ;; Ok (option_map outcome r)) = (r <- run n value gradient search type fuel c t ;; Ok (option_map outcome r)).
Proof.
  unfold run. assert (S : match initialize n value s, initialize n value t with Ok s', Ok t' => same s' t' | Raise e, Raise e' => e = e' | _, _ => False end).
  { unfold initialize. destruct (evaluate value _) as [w|]; [|reflexivity]. cbn [rbind]. unfold same. cbn. repeat (split; [reflexivity|]). intros N. exfalso. apply N. reflexivity. }
  destruct (initialize n value s) as [s1|], (initialize n value t) as [t1|]; try contradiction; [|cbn; f_equal; exact S]. cbn [rbind].
  pose proof (same_iterate s1 t1 S) as E. destruct (iterate s1) as [s'|], (iterate t1) as [t'|]; try contradiction; [|cbn; f_equal; exact E]. cbn [rbind]. apply same_cont; apply E.
Qed.
Lemma cont_more c a : forall b s r, a <= b -> cont value gradient search type a c s = Ok (Some r) -> cont value gradient search type b c s = Ok (Some r).
Proof.
  induction a as [|a IH]; intros b s r H E; destruct b as [|b]; try lia; cbn [cont] in *; destruct (stops c s); auto; try discriminate. destruct (iterate s); [|discriminate]. cbn [rbind] in *. apply IH; [lia|exact E].
Qed.
Lemma run_more a b c s r : a <= b -> run n value gradient search type a c s = Ok (Some r) -> run n value gradient search type b c s = Ok (Some r).
Proof. intros H. unfold run. destruct (initialize n value s) as [t|]; [|discriminate]. cbn [rbind]. destruct (iterate t) as [u|]; [|discriminate]. cbn [rbind]. apply cont_more, H. Qed.
End Again.

(** * Numbers that are not finite *)
Section Lost.
Context {K : ofield} (n : nat) (value : list K -> result K) (gradient : list K -> result (list K)) (search : algo K -> result (number K)).
Context (HS : forall s, grad s = None -> search s = Ok None).
Lemma iterate_lost s : solution s = None -> exists t, iterate value gradient search FletcherReeves s = Ok t /\ solution t = None /\ crit t = None.
Proof.
  intros E. unfold AcgModel.iterate, update_gradient. rewrite E. cbn [evaluate rbind]. unfold update_descent, update_gradient_norm. cbn [set_gradient set_gradient_norm iter_ grad grad_norm].
  destruct (Nat.eqb (iter_ s) 0); cbn [update rbind]; unfold update_solution; (rewrite HS by reflexivity); cbn [rbind]; unfold update_criterion; eexists; (split; [unfold axpy; cbn; rewrite E; reflexivity|]); cbn; rewrite ?E; split; reflexivity.
Qed.
Lemma cont_lost t fuel : forall s, solution s = None -> crit s = None -> cont value gradient search FletcherReeves fuel (Stop None (Some t) None false) s = Ok None.
Proof.
  induction fuel as [|fuel IH]; intros s H C; cbn [cont]; unfold stops, tests, residual; cbn [cond_all maxiter tol gtol app existsb]; rewrite C; (destruct (last_crit s); cbn [divide less id orb]; [|]); try reflexivity;
    destruct (iterate_lost s H) as (u & -> & H1 & H2); cbn [rbind]; apply IH; assumption.
Qed.
Lemma run_lost t fuel s0 s1 s2 : after n value gradient search FletcherReeves s0 1 = Ok s1 -> stops (Stop None (Some t) None false) s1 = false -> after n value gradient search FletcherReeves s0 2 = Ok s2 -> solution s2 = None -> crit s2 = None ->
  run n value gradient search FletcherReeves fuel (Stop None (Some t) None false) s0 = Ok None.
Proof.
  intros E1 S1 E2 H C. unfold run. change (after n value gradient search FletcherReeves s0 2) with (s <- after n value gradient search FletcherReeves s0 1 ;; iterate value gradient search FletcherReeves s) in E2. rewrite E1 in E2. cbn [rbind] in E2.
  cbn [after] in E1. destruct (initialize n value s0) as [u|]; [|discriminate]. cbn [rbind] in *. rewrite E1. cbn [rbind]. destruct fuel as [|fuel]; cbn [cont]; rewrite S1; [reflexivity|]. rewrite E2. cbn [rbind]. apply cont_lost; assumption.
Qed.
Lemma run_lost_computed t fuel s0 : match after n value gradient search FletcherReeves s0 1 with Ok s => negb (stops (Stop None (Some t) None false) s) | Raise _ => false end = true ->
  match after n value gradient search FletcherReeves s0 2 with Ok s => match solution s, crit s with None, None => true | _, _ => false end | Raise _ => false end = true ->
  run n value gradient search FletcherReeves fuel (Stop None (Some t) None false) s0 = Ok None.
Proof.
  intros H1 H2. destruct (after n value gradient search FletcherReeves s0 1) as [s1|] eqn:E1; [|discriminate]. destruct (after n value gradient search FletcherReeves s0 2) as [s2|] eqn:E2; [|discriminate].
  destruct (solution s2) eqn:X; [discriminate|]. destruct (crit s2) eqn:C; [discriminate|]. apply (run_lost t fuel s0 s1 s2 E1); [|exact E2|exact X|exact C]. destruct (stops _ s1); [discriminate|reflexivity].
Qed.
End Lost.

(** * Least squares *)
Section Least.
Context {K : ofield} (N1 : (r1 : K) <> r0).
Add Ring KringAcg7 : (rth K).
Local Open Scope cr_scope.
Lemma matrix_definite m n (O : nat -> nat -> K) model d : is_matrix m n O model -> (forall x, length x = n -> matvec m n O x = repeat 0 m -> x = repeat 0 n) ->
  definite n (crit_quadratic [Element (make_norm2 None) model d] [El 0%nat]).
Proof.
  intros M Inj h Lh Nh. unfold crit_quadratic. cbn [optimal_sum nth_error e_op e_norm]. rewrite (proj1 M h Lh). cbn [rbind plain_norm make_norm2 n_kind n_call]. replace (norm2 (matvec m n O h) + 0) with (norm2 (matvec m n O h)) by ring.
  pose proof (dot_nonneg (matvec m n O h)) as P. apply le_lt_eq in P. destruct P as [P|P]; [exact P|]. exfalso. apply Nh, Inj; [exact Lh|]. symmetry in P. rewrite (dot_vec m) in P by apply matvec_length. apply CgProofs.dot_self_zero in P.
  apply (array_ext m); [apply matvec_length|apply repeat_length|]. intros i Hi. etransitivity; [exact (P i Hi)|]. symmetry. apply nth_zero.
Qed.
Lemma least_squares m n (O : nat -> nat -> K) model data es c s0 : is_matrix m n O model -> length (snd data) = m -> quadratic_criterion model data [] [] None = Ok (es, c) ->
  (forall x, length x = n -> matvec m n O x = repeat 0 m -> x = repeat 0 n) ->
  exists l, c = Cr l /\ (forall x, length x = n -> crit_value es l x = norm2 (map2 rsub (matvec m n O x) (snd data))) /\
  forall s x, after n (CritSpec.value es c) (CritSpec.gradient es c) (search_optimal es l) FletcherReeves s0 n = Ok s -> solution s = Some x -> minimum n (fun x => norm2 (map2 rsub (matvec m n O x) (snd data))) x.
Proof.
  intros M Ld E Inj. unfold quadratic_criterion, criterion_of in E. cbn [repeat length Nat.add] in E. destruct data as [shape d]. cbn [snd] in *.
  destruct (make_element (make_norm2 None) model (Some (shape, d))) as [e|] eqn:Ee; [|discriminate]. cbn [rbind prior zip_elements fst snd] in E. unfold add_zero, make_criterion in E. cbn [forallb] in E. destruct (shape_eqb _ _); [|discriminate]. cbn [andb rbind] in E. injection E as <- <-.
  unfold make_element in Ee. destruct (data_ok shape (o_out model)) as [[|]|]; try discriminate. cbn [rbind] in Ee. injection Ee as <-.
  set (es := [Element (make_norm2 None) model (Some d)]). assert (Ev : every (linear_element quadratic2 n) es (Cr [El 0])).
  { split; [discriminate|]. split; [|exact I]. exists m, O. split; [exact M|]. split; [split; [reflexivity|apply quadratic_norm2]|exact Ld]. }
  assert (Fl : flat [El 0]) by (apply Forall_cons; [eexists; reflexivity|apply Forall_nil]).
  destruct (quadratic_criterion_ok n es [El 0] Ev Fl) as [CI QF]. exists [El 0%nat]. split; [reflexivity|].
  assert (Vx : forall x, length x = n -> crit_value es [El 0%nat] x = norm2 (map2 rsub (matvec m n O x) d)).
  { intros x Lx. unfold crit_value. cbn [CritSpec.value nth_error es]. unfold element_value, misfit. cbn [e_op e_data e_norm]. rewrite (proj1 M x Lx). cbn [rbind]. unfold minus. rewrite matvec_length, Ld, Nat.eqb_refl. cbn [rbind make_norm2 n_call]. ring. }
  split; [exact Vx|]. intros s x Es Ex.
  pose proof (matrix_definite m n O model (Some d) M Inj) as DQ. fold es in DQ.
  destruct (exact_solution N1 n _ _ _ QF DQ _ _ _ CI s0 s x Es Ex) as [_ [Lx H]]. split; [exact Lx|]. intros y Ly. rewrite <- !Vx by assumption. apply H, Ly.
Qed.
End Least.
