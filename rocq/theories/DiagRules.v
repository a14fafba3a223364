From Verif Require Import Base Algebra SeqModel BlockModel BlockSpec BlockProofs DiagModel DiagRulesModel DiagSpec DiagProofs.

(** ** Broadcasting two arrays that both fit a third one *)
Lemma clip_clip a b r : (forall s, stretches a s -> stretches b s -> bc a b = Ok r -> stretches r s /\
  forall idx, inside s idx -> clip a (clip r idx) = clip a idx /\ clip b (clip r idx) = clip b idx).
Proof.
  revert b r. induction a as [|n a IH]; intros b r s SA SB H.
  { cbn in H. injection H as <-. split; auto. intros idx I. split; auto. clear. revert idx. induction b as [|m b IH]; intros [|i idx]; cbn; auto.
    rewrite IH. destruct (Nat.eqb m 1); reflexivity. }
  destruct b as [|m b].
  { cbn [bc] in H. injection H as <-. split; auto. intros idx I. split; auto. generalize (n :: a). clear. intros c. revert idx. induction c as [|m b IH]; intros [|i idx]; cbn; auto.
    rewrite IH. destruct (Nat.eqb m 1); reflexivity. }
  destruct s as [|k s]; [destruct SA|]. destruct SA as [SA1 SA2], SB as [SB1 SB2]. cbn [bc] in H.
  destruct (if Nat.eqb n m then Ok n else if Nat.eqb n 1 then Ok m else if Nat.eqb m 1 then Ok n else Raise ValueError) as [d|] eqn:E; [|discriminate].
  cbn [rbind] in H. destruct (bc a b) as [r'|] eqn:E2; [|discriminate]. cbn [rbind] in H. injection H as <-.
  destruct (IH b r' s SA2 SB2 E2) as [R1 R2].
  split.
  - split; auto. destruct (Nat.eqb n m); [injection E as <-; auto|]. destruct (Nat.eqb n 1); [injection E as <-; auto|]. destruct (Nat.eqb m 1); [injection E as <-; auto|discriminate].
  - intros idx I. inversion I as [|? i ? idx' Hi I']; subst. destruct (R2 idx' I') as [-> ->] || idtac. cbn [clip]. destruct (R2 idx' I') as [-> ->].
    destruct (Nat.eqb_spec n m) as [->|Nnm]; [injection E as <-; destruct (Nat.eqb m 1); auto|].
    destruct (Nat.eqb_spec n 1) as [->|N1]; [injection E as <-; destruct (Nat.eqb m 1); auto|].
    destruct (Nat.eqb_spec m 1) as [->|M1]; [injection E as <-|discriminate]. destruct (Nat.eqb_spec n 1); [congruence|]. auto.
Qed.
Lemma bc_ok a b : forall s, stretches a s -> stretches b s -> exists r, bc a b = Ok r.
Proof.
  revert b. induction a as [|n a IH]; intros b s SA SB; [cbn; eauto|]. destruct b as [|m b]; [cbn; eauto|].
  destruct s as [|k s]; [destruct SA|]. destruct SA as [SA1 SA2], SB as [SB1 SB2]. destruct (IH b s SA2 SB2) as [r Er]. cbn. rewrite Er.
  destruct (Nat.eqb_spec n m); [cbn; eauto|]. destruct (Nat.eqb_spec n 1); [cbn; eauto|]. destruct (Nat.eqb_spec m 1); [cbn; eauto|]. lia.
Qed.
Lemma ufunc2_ok {A B C} (f : A -> B -> C) (d1 : array A) (d2 : array B) s :
  stretches (rev (ashape d1)) (rev s) -> stretches (rev (ashape d2)) (rev s) ->
  exists d, ufunc2 f d1 d2 = Ok d /\ stretches (rev (ashape d)) (rev s) /\ (ashape d1 = s \/ ashape d2 = s -> ashape d = s) /\
    forall idx, inside s idx -> stretched d idx = f (stretched d1 idx) (stretched d2 idx).
Proof.
  intros S1 S2. destruct (bc_ok _ _ _ S1 S2) as [r Er]. unfold ufunc2. rewrite Er. cbn [rbind].
  destruct (clip_clip _ _ _ _ S1 S2 Er) as [R1 R2].
  eexists. split; [reflexivity|]. cbn [ashape]. rewrite rev_involutive. split; [auto|]. split.
  - intros H. rewrite <- (rev_involutive s). f_equal.
    destruct H as [H|H]; rewrite H in Er.
    + destruct (bc_stretch _ _ S2) as [_ E]. congruence.
    + destruct (bc_stretch _ _ S1) as [E _]. congruence.
  - intros idx I. apply inside_rev in I. destruct (R2 _ I) as [Q1 Q2]. unfold stretched at 1. cbn [ashape aval]. rewrite rev_involutive.
    unfold stretched. rewrite !rev_involutive, Q1, Q2. reflexivity.
Qed.

Section Rules.
Context {K : dring}.
Add Ring KringR : (rth K).

Lemma right_fits b d s : b <> Leftward -> proper b d -> fits b d s -> stretches d s.
Proof. destruct b; cbn; try congruence; auto. - intros _ _ ->. apply stretches_refl. - intros _ H _. rewrite H by reflexivity. exact I. Qed.
Lemma right_stretched {A} b (d : array A) s idx : b <> Leftward -> proper b (ashape d) -> fits b (ashape d) s -> inside s idx ->
  stretched (transpose d) (rev idx) = coefficient b d idx.
Proof.
  intros NL P F I. destruct b; try congruence.
  - apply right_coefficient.
  - cbn in F. rewrite stretched_same by (cbn; apply inside_rev; rewrite F; auto). cbn. rewrite rev_involutive. rewrite <- (left_coefficient Disabled) by congruence.
    rewrite stretched_same by (rewrite F; auto). reflexivity.
  - rewrite coefficient_nil by (apply P; reflexivity). unfold stretched, transpose. cbn [ashape aval]. rewrite (P eq_refl). reflexivity.
Qed.
Lemma common_cases b1 b2 b : common b1 b2 = Some b ->
  (is_right b1 || is_right b2 = true /\ b1 <> Leftward /\ b2 <> Leftward /\ (b = Rightward \/ b = Disabled)) \/
  (is_right b1 || is_right b2 = false /\ b1 <> Rightward /\ b2 <> Rightward /\ b <> Rightward).
Proof. destruct b1, b2; cbn; intros [= <-]; (left; repeat split; auto; congruence) || (right; repeat split; congruence). Qed.
Lemma common_disabled b1 b2 : common b1 b2 = Some Disabled -> b1 = Disabled \/ b2 = Disabled.
Proof. destruct b1, b2; cbn; auto; discriminate. Qed.
Lemma common_scalar b1 b2 : common b1 b2 = Some Scalar -> b1 = Scalar /\ b2 = Scalar.
Proof. destruct b1, b2; cbn; auto; discriminate. Qed.

(** the combination of the data, on the coefficients *)
Lemma ufunc_combines {A B C} (f : A -> B -> C) (d1 : array A) (d2 : array B) b1 b2 b s :
  common b1 b2 = Some b -> proper b1 (ashape d1) -> proper b2 (ashape d2) ->
  fits b1 (ashape d1) s -> fits b2 (ashape d2) s ->
  exists d, (if is_right b1 || is_right b2 then d <- ufunc2 f (transpose d1) (transpose d2) ;; Ok (transpose d) else ufunc2 f d1 d2) = Ok d /\
    proper b (ashape d) /\ fits b (ashape d) s /\ forall idx, inside s idx -> coefficient b d idx = f (coefficient b1 d1 idx) (coefficient b2 d2 idx).
Proof.
  intros HC P1 P2 F1 F2. destruct (common_cases _ _ _ HC) as [(R & N1 & N2 & HB)|(R & N1 & N2 & HB)]; rewrite R.
  - destruct (ufunc2_ok f (transpose d1) (transpose d2) (rev s)) as (d & Ed & Sd & Hd & Cd).
    1: cbn; rewrite !rev_involutive; apply (right_fits b1); auto.
    1: cbn; rewrite !rev_involutive; apply (right_fits b2); auto.
    rewrite Ed. cbn [rbind]. eexists. split; [reflexivity|]. cbn [ashape transpose].
    assert (PP : proper b (rev (ashape d))). { intros ->. destruct HB; discriminate. }
    assert (FF : fits b (rev (ashape d)) s).
    { rewrite (rev_involutive s) in Sd. destruct HB as [->| ->]; cbn; auto.
      rewrite Hd; [apply rev_involutive|]. destruct (common_disabled _ _ HC) as [->| ->]; cbn in *; [left|right]; congruence. }
    repeat split; auto. intros idx I. rewrite <- (right_stretched b1 d1 s) , <- (right_stretched b2 d2 s) by auto.
    rewrite <- Cd by (apply inside_rev; auto). 
    assert (E := right_stretched b (transpose d) s idx). rewrite <- E; auto.
    + unfold stretched, transpose. cbn [ashape aval]. rewrite !rev_involutive. reflexivity.
    + destruct HB; congruence.
  - destruct (ufunc2_ok f d1 d2 s) as (d & Ed & Sd & Hd & Cd).
    1: apply (fits_left b1); auto.
    1: apply (fits_left b2); auto.
    rewrite Ed. eexists. split; [reflexivity|]. assert (FF : fits b (ashape d) s).
    { destruct b; cbn; auto; try congruence. apply Hd. destruct (common_disabled _ _ HC) as [->| ->]; cbn in *; auto. }
    split; [|split; [auto|]].
    + intros ->. destruct (common_scalar _ _ HC) as [-> ->]. unfold ufunc2 in Ed. rewrite (P1 eq_refl), (P2 eq_refl) in Ed. cbn in Ed. injection Ed as <-. reflexivity.
    + intros idx I. rewrite <- (left_coefficient b), <- (left_coefficient b1), <- (left_coefficient b2) by auto. apply Cd; auto.
Qed.

Definition gshape (d : gdata K) : list nat := match d with Bools a => ashape a | Nums a => ashape a end.
Lemma nums_shape d : ashape (nums d) = gshape d.
Proof. destruct d; reflexivity. Qed.
Lemma transpose_nums (d : gdata K) : nums (gtranspose d) = transpose (nums d).
Proof. destruct d; reflexivity. Qed.

Lemma gcombines (f : K -> K -> K) fb d1 d2 b1 b2 b s :
  ((forall u v, number (K := K) (fb u v) = f (number u) (number v)) \/ (forall a1 a2, d1 = Bools a1 -> d2 = Bools a2 -> False)) ->
  common b1 b2 = Some b -> proper b1 (gshape d1) -> proper b2 (gshape d2) -> fits b1 (gshape d1) s -> fits b2 (gshape d2) s ->
  exists d, rule_broadcast f fb (d1, b1) (d2, b2) = Some (Ok (d, b)) /\ proper b (gshape d) /\ fits b (gshape d) s /\
    forall idx, inside s idx -> coefficient b (nums d) idx = f (coefficient b1 (nums d1) idx) (coefficient b2 (nums d2) idx).
Proof.
  intros HF HC P1 P2 F1 F2. unfold rule_broadcast. rewrite HC.
  assert (G : gufunc f fb (gtranspose d1) (gtranspose d2) = rbind (ufunc2 f (transpose (nums d1)) (transpose (nums d2))) (fun a => Ok (Nums a)) ->
      gufunc f fb d1 d2 = rbind (ufunc2 f (nums d1) (nums d2)) (fun a => Ok (Nums a)) ->
      exists d, Some (d <- (if is_right b1 || is_right b2 then d <- gufunc f fb (gtranspose d1) (gtranspose d2);; Ok (gtranspose d) else gufunc f fb d1 d2);; Ok (d, b)) = Some (Ok (d, b)) /\ proper b (gshape d) /\ fits b (gshape d) s /\
    forall idx, inside s idx -> coefficient b (nums d) idx = f (coefficient b1 (nums d1) idx) (coefficient b2 (nums d2) idx)).
  { intros G1 G2. rewrite <- !nums_shape in *.
    destruct (ufunc_combines f (nums d1) (nums d2) b1 b2 b s HC P1 P2 F1 F2) as (d & Ed & Pd & Fd & Cd).
    exists (Nums d). rewrite G1, G2. split; [|auto].
    f_equal. destruct (is_right b1 || is_right b2).
    - destruct (ufunc2 f (transpose (nums d1)) (transpose (nums d2))) as [a|e]; cbn in *; [|discriminate]. injection Ed as <-. reflexivity.
    - rewrite Ed. reflexivity. }
  destruct d1 as [a1|a1]; [destruct d2 as [a2|a2]|]; [|apply G; reflexivity|apply G; destruct d2; reflexivity].
  destruct HF as [HF|HF]; [|exfalso; eapply HF; eauto].
  destruct (ufunc_combines fb a1 a2 b1 b2 b s) as (d & Ed & Pd & Fd & Cd); auto.
  exists (Bools d). split; [|split; [exact Pd|split; [exact Fd|]]].
  - f_equal. cbn [gufunc gtranspose]. destruct (is_right b1 || is_right b2).
    + destruct (ufunc2 fb (transpose a1) (transpose a2)) as [a|e]; cbn in *; [|discriminate]. injection Ed as <-. reflexivity.
    + rewrite Ed. reflexivity.
  - intros idx I. change (number (coefficient b d idx) = f (number (coefficient b1 a1 idx)) (number (coefficient b2 a2 idx))). rewrite Cd by auto. auto.
Qed.

(** ** Operators *)
Definition wf (op : diag K) : Prop :=
  match d_class op with
  | Mask m b => proper b (ashape m) /\ (b = Disabled -> d_shape op = Some (ashape m))
  | Diagonal d b => proper b (ashape d) /\ (b = Disabled -> d_shape op = Some (ashape d))
  | _ => True
  end.
Lemma homothety_wf (c : K) s : wf (homothety c s).
Proof. unfold homothety. destruct (inspect [c]) as [[[[? z] o] ?] ?]. destruct (Nat.eqb z 1); [|destruct (Nat.eqb o 1)]; exact I. Qed.
Lemma scalarized_proper d b : proper b d -> proper (scalarized d b) d.
Proof. unfold proper. destruct d, b; cbn; auto. Qed.
Lemma scalarized_disabled d b : scalarized d b = Disabled -> b = Disabled.
Proof. destruct d, b; cbn; auto; discriminate. Qed.
Lemma mask_wf m b s : proper b (ashape m) -> wf (mask m b s).
Proof.
  intros P. unfold mask. destruct (inspect_bool _) as [[[[? z] o] ?] ?]. destruct (Nat.eqb z _); [exact I|]. destruct (Nat.eqb o _); [exact I|].
  fold (scalarized (ashape m) b). split; cbn [d_shape]; [apply scalarized_proper; auto|]. intros E%scalarized_disabled. rewrite E. reflexivity.
Qed.
Lemma diagonal_wf (d : array K) b : proper b (ashape d) -> wf (diagonal d b).
Proof.
  intros P. unfold diagonal. destruct (inspect _) as [[[[? z] o] ?] same]. destruct (Nat.eqb z _); [exact I|]. destruct (Nat.eqb o _); [exact I|].
  destruct same; [destruct (ravel d); [exact I|apply homothety_wf]|]. destruct (Nat.eqb (o + z) _); [apply mask_wf; exact P|].
  fold (scalarized (ashape d) b). split; cbn [d_shape]; [apply scalarized_proper; auto|]. intros E%scalarized_disabled. rewrite E. reflexivity.
Qed.
Lemma made_wf (op : diag K) : made op -> wf op.
Proof. intros [s|s|c s|m b s P|d b P]; [exact I|exact I|apply homothety_wf|apply mask_wf; auto|apply diagonal_wf; auto]. Qed.

Lemma shape_eqb_ok s t : shape_eqb s t = true -> s = t.
Proof. unfold shape_eqb. destruct (list_eq_dec Nat.eq_dec s t); congruence. Qed.
Lemma fits_dec b d s : fits b d s \/ ~ fits b d s.
Proof.
  assert (G : forall d s, stretches d s \/ ~ stretches d s).
  { clear. induction d as [|n d IH]; intros [|m s]; cbn; auto. destruct (IH s); [|tauto]. destruct (Nat.eq_dec n 1), (Nat.eq_dec n m); tauto. }
  destruct b; cbn; auto. destruct (list_eq_dec Nat.eq_dec d s); auto.
Qed.
Lemma direct_fits {A B} (f : A -> B -> A) (d : array B) b x y : b <> Disabled -> broadcast_direct f d b x = Ok y -> fits b (ashape d) (ashape x).
Proof. intros N E. destruct (fits_dec b (ashape d) (ashape x)) as [|NF]; auto. rewrite direct_rejects in E by auto. discriminate. Qed.

(** what is known of an operator that has been applied *)
Lemma applied op g b (x y : array K) : wf op -> get_data op = Some (g, b) -> apply op x = Ok y ->
  proper b (gshape g) /\ fits b (gshape g) (ashape x) /\ elementwise (fun idx v => rmul (coefficient b (nums g) idx) v) x y.
Proof.
  intros W G E. unfold apply in E.
  destruct (match d_shape op with Some s => if shape_eqb s (ashape x) then Ok tt else Raise ValueError | None => match d_class op with Diagonal data b => validatein (ashape data) b (ashape x) | _ => Ok tt end end) as [[]|] eqn:ES; [|discriminate].
  cbn [rbind] in E. unfold wf, get_data in *. destruct (d_class op) as [| |c|m bm|d bd]; try discriminate; injection G as <- <-.
  - injection E as <-. split; [intro; reflexivity|]. split; [exact I|]. apply elementwise_id. intros idx _. cbn. ring.
  - split; [intro; reflexivity|]. split; [exact I|]. change (broadcast_direct rmul (scalar c) Scalar x = Ok y) in E.
    destruct (direct_ok rmul (scalar c) Scalar x) as (y' & E' & Y); [exact I|]. rewrite E in E'. injection E' as <-.
    eapply elementwise_ext; [exact Y|]. intros idx _. cbn. ring.
  - destruct W as [W1 W2]. change (broadcast_direct masking m bm x = Ok y) in E. split; [exact W1|].
    assert (F : fits bm (ashape m) (ashape x)).
    { destruct bm; try (eapply direct_fits; [|exact E]; congruence). rewrite (W2 eq_refl) in ES. destruct (shape_eqb (ashape m) (ashape x)) eqn:Q; [|discriminate]. apply shape_eqb_ok in Q. exact Q. }
    split; [exact F|]. destruct (direct_ok masking m bm x F) as (y' & E' & Y). rewrite E in E'. injection E' as <-.
    eapply elementwise_ext; [exact Y|]. intros idx _. cbv beta. unfold coefficient. cbn [nums ashape aval]. unfold masking, number. destruct (aval m _); cbn; ring.
  - destruct W as [W1 W2]. change (broadcast_direct rmul d bd x = Ok y) in E. split; [exact W1|].
    assert (F : fits bd (ashape d) (ashape x)).
    { destruct bd; try (eapply direct_fits; [|exact E]; congruence). rewrite (W2 eq_refl) in ES. destruct (shape_eqb (ashape d) (ashape x)) eqn:Q; [|discriminate]. apply shape_eqb_ok in Q. exact Q. }
    split; [exact F|]. destruct (direct_ok rmul d bd x F) as (y' & E' & Y). rewrite E in E'. injection E' as <-.
    eapply elementwise_ext; [exact Y|]. intros idx _. cbv beta. cbn [nums]. ring.
Qed.
Lemma apply_shape op (x y : array K) : wf op -> apply op x = Ok y -> ashape y = ashape x.
Proof.
  intros W E. destruct (get_data op) as [[g b]|] eqn:G.
  - destruct (applied _ _ _ _ _ W G E) as (_ & _ & Y & _). exact Y.
  - unfold get_data in G. unfold apply in E. destruct (d_class op); try discriminate.
    destruct (d_shape op) as [s|]; [destruct (shape_eqb s (ashape x)); [|discriminate]|]; cbn in E; injection E as <-; reflexivity.
Qed.

Lemma number_and u v : number (K := K) (andb u v) = rmul (number u) (number v).
Proof. destruct u, v; cbn; ring. Qed.

Definition mask_like (op : diag K) : Prop := exists m b, d_class op = Mask m b.
Lemma not_bools op1 op2 g1 b1 g2 b2 : get_data op1 = Some (g1, b1) -> get_data op2 = Some (g2, b2) ->
  ~ (mask_like op1 /\ mask_like op2) -> forall a1 a2, g1 = Bools a1 -> g2 = Bools a2 -> False.
Proof.
  intros G1 G2 N a1 a2 -> ->. apply N. unfold get_data, mask_like in *. destruct (d_class op1); try discriminate. destruct (d_class op2); try discriminate. split; eauto.
Qed.

Lemma rule_sound f fb op1 op2 r :
  ((forall u v, number (K := K) (fb u v) = f (number u) (number v)) \/ ~ (mask_like op1 /\ mask_like op2)) ->
  wf op1 -> wf op2 -> match get_data op1, get_data op2 with Some x1, Some x2 => to_diag (rule_broadcast f fb x1 x2) | _, _ => None end = Some r ->
  forall x1 x2 y1 y2, ashape x1 = ashape x2 -> apply op1 x1 = Ok y1 -> apply op2 x2 = Ok y2 ->
  exists op c1 c2, r = Ok op /\ made op /\ elementwise (fun idx v => rmul (c1 idx) v) x1 y1 /\ elementwise (fun idx v => rmul (c2 idx) v) x2 y2 /\
  forall x, ashape x = ashape x1 -> exists y, apply op x = Ok y /\ elementwise (fun idx v => rmul (f (c1 idx) (c2 idx)) v) x y.
Proof.
  intros HF W1 W2 R x1 x2 y1 y2 ES E1 E2. destruct (get_data op1) as [[g1 b1]|] eqn:G1; [|discriminate]. destruct (get_data op2) as [[g2 b2]|] eqn:G2; [|discriminate].
  destruct (applied _ _ _ _ _ W1 G1 E1) as (P1 & F1 & Y1). destruct (applied _ _ _ _ _ W2 G2 E2) as (P2 & F2 & Y2). rewrite <- ES in F2.
  destruct (common b1 b2) as [b|] eqn:HC; [|unfold rule_broadcast in R; rewrite HC in R; discriminate].
  destruct (gcombines f fb g1 g2 b1 b2 b (ashape x1)) as (d & Ed & Pd & Fd & Cd); auto.
  { destruct HF as [HF|HF]; [left; auto|right]. eapply not_bools; eauto. }
  rewrite Ed in R. cbn in R. injection R as <-.
  exists (diagonal (nums d) b), (coefficient b1 (nums g1)), (coefficient b2 (nums g2)).
  split; [reflexivity|]. split; [apply made_diagonal; rewrite nums_shape; auto|]. split; [auto|]. split; [auto|].
  intros x Ex. destruct (apply_diagonal (nums d) b x) as (y & Ey & Y); [rewrite nums_shape, Ex; auto|]. exists y. split; [auto|].
  eapply elementwise_ext; [exact Y|]. intros idx Hi. cbv beta. rewrite Cd by (rewrite <- Ex; auto). reflexivity.
Qed.

Lemma compose_sound (op1 op2 : diag K) r x y z : made op1 -> made op2 -> compose_rule op1 op2 = Some r -> apply op2 x = Ok y -> apply op1 y = Ok z ->
  exists op z', r = Ok op /\ made op /\ apply op x = Ok z' /\ aeq z' z.
Proof.
  intros M1%made_wf M2%made_wf R E2 E1. assert (Sy := apply_shape _ _ _ M2 E2).
  destruct (rule_sound rmul andb op1 op2 r (or_introl number_and) M1 M2 R y x z y Sy E1 E2) as (op & c1 & c2 & -> & Mo & [Z1 Z2] & [Y1 Y2] & H).
  destruct (H x) as (z' & Ez & [Q1 Q2]); [congruence|]. exists op, z'. repeat split; auto; [congruence|]. intros idx Hi. rewrite Q1 in Hi.
  rewrite Q2, Z2, Y2 by congruence. ring.
Qed.
Lemma sum_sound (op1 op2 : diag K) r x y1 y2 : made op1 -> made op2 -> ~ (mask_like op1 /\ mask_like op2) -> sum_rule op1 op2 = Some r ->
  apply op1 x = Ok y1 -> apply op2 x = Ok y2 -> exists op z, r = Ok op /\ made op /\ apply op x = Ok z /\ combines radd y1 y2 z.
Proof.
  intros M1%made_wf M2%made_wf N R E1 E2.
  destruct (rule_sound radd orb op1 op2 r (or_intror N) M1 M2 R x x y1 y2 eq_refl E1 E2) as (op & c1 & c2 & -> & Mo & [Z1 Z2] & [Y1 Y2] & H).
  destruct (H x) as (z' & Ez & [Q1 Q2]); [congruence|]. exists op, z'. repeat split; auto; [congruence|congruence|]. intros idx Hi. rewrite Z1 in Hi.
  rewrite Q2, Z2, Y2 by auto. ring.
Qed.

(** ** Constants *)
Definition cwf (k : constop K) : Prop :=
  match c_class k with CZero => True | CData d b => proper b (ashape d) /\ (b = Disabled -> c_shape k = Some (ashape d)) end.
Lemma assign_ok {A} (a : array A) out : stretches (rev (ashape a)) (rev out) -> assign a out = Ok (Arr out (fun idx => stretched a idx)).
Proof. intros S. unfold assign. destruct (bc_stretch _ _ S) as [-> _]. cbn [rbind]. rewrite shape_eqb_refl. reflexivity. Qed.
Lemma bc_in a : forall s, bc a s = Ok s -> stretches a s.
Proof.
  induction a as [|n a IH]; intros s H; [exact I|]. destruct s as [|m s]; [discriminate|]. cbn [bc] in H.
  destruct (if Nat.eqb n m then Ok n else if Nat.eqb n 1 then Ok m else if Nat.eqb m 1 then Ok n else Raise ValueError) as [d|] eqn:E; [|discriminate].
  cbn [rbind] in H. destruct (bc a s) as [r|] eqn:E2; [|discriminate]. cbn [rbind] in H. injection H as -> ->. split; [|apply IH; auto].
  destruct (Nat.eqb_spec n m); auto. destruct (Nat.eqb_spec n 1); auto. destruct (Nat.eqb m 1); [injection E; auto|discriminate].
Qed.
Lemma assign_fits {A} (a : array A) out r : assign a out = Ok r -> stretches (rev (ashape a)) (rev out).
Proof.
  unfold assign. destruct (bc _ _) as [s|] eqn:E; [|discriminate]. cbn [rbind]. destruct (shape_eqb s (rev out)) eqn:Q; [|discriminate].
  apply shape_eqb_ok in Q. subst. intros _. apply bc_in. exact E.
Qed.
Definition assign_direct {A} (d : array A) b out : result (array A) :=
  match b with Rightward => r <- assign (transpose d) (rev out) ;; Ok (transpose r) | _ => assign d out end.
Lemma assign_direct_ok {A} (d : array A) b out : fits b (ashape d) out ->
  exists y, assign_direct d b out = Ok y /\ ashape y = out /\ forall idx, inside out idx -> aval y idx = coefficient b d idx.
Proof.
  intros F. assert (HL : b <> Rightward -> exists y, assign d out = Ok y /\ ashape y = out /\ forall idx, inside out idx -> aval y idx = coefficient b d idx).
  { intros N. rewrite assign_ok by (eapply fits_left; eauto). eexists. split; [reflexivity|]. split; [reflexivity|]. intros idx I. cbn [aval]. apply left_coefficient; auto. }
  destruct b; try (apply HL; congruence). cbn [assign_direct]. rewrite assign_ok by (cbn; rewrite !rev_involutive; exact F). cbn [rbind].
  eexists. split; [reflexivity|]. split; [cbn; apply rev_involutive|]. intros idx I. unfold transpose at 1. cbn [aval]. apply right_coefficient.
Qed.
Lemma assign_direct_fits {A} (d : array A) b out y : b <> Disabled -> assign_direct d b out = Ok y -> fits b (ashape d) out.
Proof.
  intros N E. destruct b; try congruence; cbn [assign_direct fits] in *; try (eapply assign_fits; eauto).
  destruct (assign (transpose d) (rev out)) eqn:Q; [|discriminate]. apply assign_fits in Q. cbn in Q. rewrite !rev_involutive in Q. exact Q.
Qed.
Lemma const_applied (k : constop K) out y : cwf k -> constant_apply k out = Ok y ->
  let '(g, b) := cdata k in proper b (gshape g) /\ fits b (gshape g) out /\ ashape y = out /\ forall idx, inside out idx -> aval y idx = coefficient b (nums g) idx.
Proof.
  intros W E. unfold constant_apply in E.
  destruct (match c_shape k with Some s => if shape_eqb s out then Ok tt else Raise ValueError | None => Ok tt end) as [[]|] eqn:ES; [|discriminate].
  cbn [rbind] in E. unfold cwf, cdata in *. destruct (c_class k) as [|d b].
  - split; [intro; reflexivity|]. split; [exact I|]. change (assign_direct (scalar (A := K) r0) Scalar out = Ok y) in E.
    destruct (assign_direct_ok (scalar (A := K) r0) Scalar out I) as (y' & E' & Y). rewrite E in E'. injection E' as <-. exact Y.
  - destruct W as [W1 W2]. split; [exact W1|]. assert (E0 : assign_direct d b out = Ok y) by (destruct b; exact E).
    assert (F : fits b (ashape d) out).
    { destruct b; try (eapply assign_direct_fits; [|exact E0]; congruence). rewrite (W2 eq_refl) in ES. destruct (shape_eqb (ashape d) out) eqn:Q; [|discriminate]. apply shape_eqb_ok in Q. exact Q. }
    split; [exact F|]. destruct (assign_direct_ok d b out F) as (y' & E' & Y). rewrite E0 in E'. injection E' as <-. exact Y.
Qed.
Lemma constant_scalar_apply (c : K) sh out : same_shape sh out -> exists y, constant_apply (constant_scalar c sh) out = Ok y /\ ashape y = out /\ forall idx, inside out idx -> aval y idx = c.
Proof.
  intros S. unfold constant_scalar. destruct (deq c r0) eqn:E.
  - apply deq_true in E. subst c. unfold constant_apply. cbn [c_shape c_class]. rewrite check_ok by auto. cbn [rbind].
    destruct (assign_direct_ok (scalar (A := K) r0) Scalar out I) as (y & E & Y). exists y. split; [exact E|]. exact Y.
  - unfold constant_apply. cbn [c_shape c_class]. rewrite check_ok by auto. cbn [rbind].
    destruct (assign_direct_ok (scalar c) Scalar out I) as (y & E' & Y). exists y. split; [exact E'|]. exact Y.
Qed.
Lemma constant_ok (d : array K) b out : fits b (ashape d) out -> ravel d <> [] ->
  exists k y, constant d b = Ok k /\ constant_apply k out = Ok y /\ ashape y = out /\ forall idx, inside out idx -> aval y idx = coefficient b d idx.
Proof.
  intros F NE. unfold constant. set (sh := match b with Disabled => Some (ashape d) | _ => None end).
  assert (S : same_shape sh out) by (apply shape_of; auto).
  assert (IN : forall idx, inside out idx -> In (coefficient b d idx) (ravel d)) by (intros; eapply coefficient_in; eauto).
  destruct (ashape d) as [|n s] eqn:Es.
  { destruct (constant_scalar_apply (aval d []) sh out S) as (y & E & Y1 & Y2). eexists. exists y. split; [reflexivity|]. split; [exact E|]. split; [auto|]. intros idx Hi. rewrite Y2, coefficient_nil; auto. }
  rewrite <- Es in *. destruct (ravel d) as [|c v] eqn:Er; [congruence|]. rewrite <- Er in *. destruct (forallb (fun x => deq x c) (ravel d)) eqn:EF.
  - destruct (constant_scalar_apply c sh out S) as (y & E & Y1 & Y2). eexists. exists y. split; [reflexivity|]. split; [exact E|]. split; [auto|]. intros idx Hi. rewrite Y2 by auto.
    rewrite forallb_forall in EF. symmetry. apply deq_true, EF, IN, Hi.
  - destruct (assign_direct_ok d b out F) as (y & E & Y). eexists. exists y. split; [reflexivity|]. split; [|exact Y].
    unfold constant_apply. cbn [c_shape c_class]. rewrite check_ok by auto. cbn [rbind]. destruct b; exact E.
Qed.
Lemma constant_cwf (d : array K) b k : proper b (ashape d) -> constant d b = Ok k -> cwf k.
Proof.
  intros P. unfold constant. assert (CS : forall c sh, cwf (constant_scalar (K := K) c sh)).
  { intros c sh. unfold constant_scalar. destruct (deq c r0); [exact I|]. split; [intro; reflexivity|discriminate]. }
  destruct (ashape d) eqn:E; [intros [= <-]; apply CS|]. destruct (ravel d) as [|c v]; [discriminate|].
  destruct (forallb _ _); intros [= <-]; [apply CS|]. split; cbn [c_shape]; rewrite E; auto. intros ->. reflexivity.
Qed.

(** arrays with elements *)
Lemma ravel_inhabited {A} b (d : array A) s idx : fits b (ashape d) s -> inside s idx -> ravel d <> [].
Proof. intros F I E. assert (H := coefficient_in b d s idx F I). rewrite E in H. destruct H. Qed.

Lemma constant_rule_sound f (k1 k2 : constop K) r out y1 y2 idx0 : cwf k1 -> cwf k2 -> constant_rule f k1 k2 = Some r ->
  constant_apply k1 out = Ok y1 -> constant_apply k2 out = Ok y2 -> inside out idx0 ->
  exists k z, r = Ok k /\ cwf k /\ constant_apply k out = Ok z /\ combines f y1 y2 z.
Proof.
  intros W1 W2 R E1 E2 NE. assert (A1 := const_applied _ _ _ W1 E1). assert (A2 := const_applied _ _ _ W2 E2). unfold constant_rule in R.
  assert (NB : forall k g b, cdata (K := K) k = (g, b) -> forall a, g <> Bools a).
  { intros k g b. unfold cdata. destruct (c_class k); intros [= <- <-]; congruence. }
  destruct (cdata k1) as [g1 b1] eqn:G1, (cdata k2) as [g2 b2] eqn:G2. destruct A1 as (P1 & F1 & S1 & Y1), A2 as (P2 & F2 & S2 & Y2).
  destruct (common b1 b2) as [b|] eqn:HC; [|unfold rule_broadcast in R; rewrite HC in R; discriminate].
  destruct (gcombines f andb g1 g2 b1 b2 b out) as (d & Ed & Pd & Fd & Cd); auto.
  { right. intros a1 a2 Q _. exact (NB _ _ _ G1 a1 Q). }
  rewrite Ed in R. cbn in R. injection R as <-.
  destruct (constant_ok (nums d) b out) as (k & z & Ek & Ez & Z1 & Z2); [rewrite nums_shape; auto|eapply ravel_inhabited; [rewrite nums_shape; exact Fd|exact NE]|].
  exists k, z. split; [exact Ek|]. split; [eapply constant_cwf; [|exact Ek]; rewrite nums_shape; auto|]. split; [exact Ez|]. split; [congruence|]. split; [congruence|].
  intros idx Hi. rewrite S1 in Hi. rewrite Z2, Cd, Y1, Y2; auto.
Qed.
Lemma diag_constant_sound (op : diag K) k r x y1 y2 : made op -> cwf k -> diag_constant_rule op k = Some r ->
  apply op x = Ok y1 -> constant_apply k (ashape x) = Ok y2 -> exists op' z, r = Ok op' /\ made op' /\ apply op' x = Ok z /\ combines rmul y1 y2 z.
Proof.
  intros W1%made_wf W2 R E1 E2. assert (A2 := const_applied _ _ _ W2 E2). unfold diag_constant_rule in R.
  destruct (get_data op) as [[g1 b1]|] eqn:G1; [|discriminate]. destruct (applied _ _ _ _ _ W1 G1 E1) as (P1 & F1 & Y1 & V1).
  destruct (cdata k) as [g2 b2] eqn:G2. destruct A2 as (P2 & F2 & S2 & V2).
  destruct (common b1 b2) as [b|] eqn:HC; [|unfold rule_broadcast in R; rewrite HC in R; discriminate].
  destruct (gcombines rmul andb g1 g2 b1 b2 b (ashape x) (or_introl number_and)) as (d & Ed & Pd & Fd & Cd); auto.
  rewrite Ed in R. cbn in R. injection R as <-.
  destruct (apply_diagonal (nums d) b x) as (z & Ez & Z1 & Z2); [rewrite nums_shape; auto|].
  exists (diagonal (nums d) b), z. split; [reflexivity|]. split; [apply made_diagonal; rewrite nums_shape; auto|]. split; [exact Ez|]. split; [congruence|]. split; [congruence|].
  intros idx Hi. rewrite Y1 in Hi. rewrite Z2, Cd, V1, V2 by auto. ring.
Qed.
Lemma constant_mul_sound (k : constop K) y c : cwf k -> constant_apply k (ashape y) = Ok c -> exists z, apply (constant_mul_rule k) y = Ok z /\ combines rmul c y z.
Proof.
  intros W E. assert (A2 := const_applied _ _ _ W E). unfold constant_mul_rule. destruct (cdata k) as [g b]. destruct A2 as (P & F & S & V).
  destruct (apply_diagonal (nums g) b y) as (z & Ez & Z1 & Z2); [rewrite nums_shape; auto|]. exists z. split; [exact Ez|]. split; [congruence|]. split; [congruence|].
  intros idx Hi. rewrite S in Hi. rewrite Z2, V by auto. reflexivity.
Qed.
Lemma multiply_sound (op1 op2 : diag K) r x y1 y2 idx0 : made op1 -> made op2 -> multiply_rule op1 op2 = Some r ->
  (forall g1 g2 b1 b2, get_data op1 = Some (g1, b1) -> get_data op2 = Some (g2, b2) -> ~ ((b1 = Disabled /\ b2 = Rightward) \/ (b1 = Rightward /\ b2 = Disabled))) ->
  apply op1 x = Ok y1 -> apply op2 x = Ok y2 -> inside (ashape x) idx0 ->
  exists d b k c, r = Ok (d, b) /\ constant (nums d) b = Ok k /\ constant_apply k (ashape x) = Ok c /\
    ashape c = ashape x /\ forall idx, inside (ashape x) idx -> rmul (aval c idx) (rmul (aval x idx) (aval x idx)) = rmul (aval y1 idx) (aval y2 idx).
Proof.
  intros W1%made_wf W2%made_wf R N E1 E2 NE. unfold multiply_rule in R.
  destruct (get_data op1) as [[g1 b1]|] eqn:G1; [|discriminate]. destruct (get_data op2) as [[g2 b2]|] eqn:G2; [|discriminate].
  destruct (applied _ _ _ _ _ W1 G1 E1) as (P1 & F1 & Y1 & V1). destruct (applied _ _ _ _ _ W2 G2 E2) as (P2 & F2 & Y2 & V2).
  destruct (common b1 b2) as [b|] eqn:HC; [|discriminate]. specialize (N _ _ _ _ eq_refl eq_refl).
  destruct (gcombines rmul andb g1 g2 b1 b2 b (ashape x) (or_introl number_and)) as (d & Ed & Pd & Fd & Cd); auto.
  assert (is_right b = is_right b1 || is_right b2) as RB. { clear - HC N. destruct b1, b2; cbn in HC; try discriminate; injection HC as <-; cbn; auto; tauto. }
  unfold rule_broadcast in Ed. rewrite HC in Ed. rewrite RB, Ed in R. injection R as <-.
  destruct (constant_ok (nums d) b (ashape x)) as (k & z & Ek & Ez & Z1 & Z2); [rewrite nums_shape; auto|eapply ravel_inhabited; [rewrite nums_shape; exact Fd|exact NE]|].
  exists d, b, k, z. repeat split; auto. intros idx Hi. rewrite Z2, Cd, V1, V2 by auto. ring.
Qed.

Lemma kmade_cwf (k : constop K) : kmade k -> cwf k.
Proof.
  intros [s|c s|d b k' P E]; [exact I| |eapply constant_cwf; eauto]. unfold constant_scalar. destruct (deq c r0); [exact I|]. split; [intro; reflexivity|discriminate].
Qed.
Lemma constant_kmade_iff (d : array K) b k : proper b (ashape d) -> constant d b = Ok k -> kmade k.
Proof. intros P E. eapply kmade_data; eauto. Qed.

(** ** Flags and inverse *)
Lemma twice (data : array K) b x : d_inv (diagonal data b) = true -> fits b (ashape data) (ashape x) ->
  exists y z, apply (diagonal data b) x = Ok y /\ apply (diagonal data b) y = Ok z /\ aeq z x.
Proof.
  intros HI F. assert (P := diagonal_involutary data b HI). destruct (apply_diagonal data b x F) as (y & Ey & Y1 & Y2).
  destruct (apply_diagonal data b y) as (z & Ez & Z1 & Z2); [rewrite Y1; auto|]. exists y, z. split; [auto|]. split; [auto|]. split; [congruence|].
  intros idx Hi. rewrite Z1, Y1 in Hi. rewrite Z2, Y2 by congruence. destruct (P _ (coefficient_in b data _ idx F Hi)) as [-> | ->]; ring.
Qed.
Lemma mask_twice m b (x : array K) : fits b (ashape m) (ashape x) ->
  exists y z, apply (mask m b None) x = Ok y /\ apply (mask m b None) y = Ok z /\ aeq z y.
Proof.
  intros F. destruct (apply_mask m b None x F) as (y & Ey & Y1 & Y2); [left; auto|].
  destruct (apply_mask m b None y) as (z & Ez & Z1 & Z2); [rewrite Y1; auto|left; auto|]. exists y, z. split; [auto|]. split; [auto|]. split; [congruence|].
  intros idx Hi. rewrite Z1, Y1 in Hi. rewrite Z2, Y2 by congruence. destruct (coefficient b m idx); reflexivity.
Qed.
Lemma inverse_ok (div : K -> K -> K) : (r1 : K) <> r0 -> (forall a c, c <> r0 -> rmul (div a c) c = a) ->
  forall (data : array K) b x, fits b (ashape data) (ashape x) -> (forall c, In c (ravel data) -> c <> r0) -> ravel data <> [] ->
  exists y z, apply_inverse div (diagonal data b) x = Ok y /\ apply (diagonal data b) y = Ok z /\ aeq z x.
Proof.
  intros H10 HD data b x F NZ NE.
  assert (G : exists y, apply_inverse div (diagonal data b) x = Ok y /\ elementwise (fun idx v => div v (coefficient b data idx)) x y \/
     exists y, apply_inverse div (diagonal data b) x = Ok y /\ ashape y = ashape x /\ forall idx, inside (ashape x) idx -> rmul (aval y idx) (coefficient b data idx) = aval x idx).
  { assert (IN : forall idx, inside (ashape x) idx -> In (coefficient b data idx) (ravel data)) by (intros; eapply coefficient_in; eauto).
    unfold diagonal. set (sh := match b with Disabled => Some (ashape data) | _ => None end).
    destruct (inspect (ravel data)) as [[[[m z] o] other] same] eqn:E. apply inspect_sound in E. destruct E as [P1 P2 P3 P4 P5].
    assert (HM : forall sh c, (forall x, In x (ravel data) -> x = c) -> c <> r0 -> exists y, apply_inverse div (homothety c sh) x = Ok y /\ ashape y = ashape x /\ forall idx, inside (ashape x) idx -> rmul (aval y idx) (coefficient b data idx) = aval x idx).
    { clear sh. intros sh c HC Nc. unfold homothety. destruct (inspect [c]) as [[[[m' z'] o'] ?] ?] eqn:E. apply inspect_sound in E. destruct E as [Q1 Q2 Q3 Q4 Q5].
      destruct (Nat.eqb_spec z' 1) as [E1|_]. { exfalso. apply Nc. apply Q2; [exact E1|left; auto]. }
      destruct (Nat.eqb_spec o' 1) as [E2|_].
      { exists x. split; [reflexivity|]. split; [reflexivity|]. intros idx Hi. rewrite (HC _ (IN idx Hi)). rewrite (Q3 E2 c) by (left; auto). ring. }
      unfold apply_inverse. cbn [d_class]. destruct (apply_homothety (div r1 c) None x) as (y & Ey & Y1 & Y2); [left; auto|]. exists y. split; [auto|]. split; [auto|].
      intros idx Hi. rewrite Y2, (HC _ (IN idx Hi)) by auto. replace (rmul (rmul (aval x idx) (div r1 c)) c) with (rmul (aval x idx) (rmul (div r1 c) c)) by ring. rewrite HD by auto. ring. }
    destruct (Nat.eqb_spec z (length (ravel data))) as [E1|_].
    { exfalso. destruct (ravel data) as [|c v] eqn:Ev; [congruence|]. apply (NZ c); [left; auto|]. apply P2; [auto|left; auto]. }
    destruct (Nat.eqb_spec o (length (ravel data))) as [E2|_].
    { exists x. right. exists x. split; [reflexivity|]. split; [reflexivity|]. intros idx Hi. rewrite (P3 E2 _ (IN idx Hi)). ring. }
    destruct same.
    { destruct (P1 eq_refl) as (c & v' & Ev & HC). rewrite Ev. destruct (HM sh c HC) as (y & Y); [apply NZ; rewrite Ev; left; auto|]. exists y. right. exists y. exact Y. }
    destruct (Nat.eqb_spec (o + z) (length (ravel data))) as [E3|_].
    { exists x. right. exists x. assert (A1 : forall c, In c (ravel data) -> c = r1). { intros c Hc. destruct (P4 E3 c Hc) as [->|]; auto. exfalso. eapply NZ; eauto. }
      assert (HB : forall u, In u (ravel (Arr (ashape data) (fun idx => deq (aval data idx) r0))) -> u = false).
      { unfold ravel. cbn [ashape aval]. intros u (idx & <- & Hi)%in_map_iff. destruct (deq (aval data idx) r0) eqn:D; auto. apply deq_true in D. exfalso.
        apply (NZ (aval data idx)); [unfold ravel; apply in_map; auto|auto]. }
      unfold mask. destruct (inspect_bool (ravel (Arr (ashape data) (fun idx => deq (aval data idx) r0)))) as [[[[? zz] oo] ?] ?] eqn:EB.
      assert (zz = length (ravel (Arr (ashape data) (fun idx => deq (aval data idx) r0)))) as ->.
      { revert EB HB. generalize (ravel (Arr (ashape data) (fun idx => deq (aval data idx) r0))). intros l EB HB. unfold inspect_bool in EB. destruct l as [|u l]; injection EB as <- <- <- <- <-; auto.
        cbn [length]. assert (G : forall l, (forall u, In u l -> u = false) -> length (filter negb l) = length l).
        { clear. induction l as [|a l IH]; intros H; auto. cbn. rewrite (H a (or_introl eq_refl)). cbn. rewrite IH; auto. intros u Hu. apply H. right; auto. }
        apply (G (u :: l)). exact HB. }
      rewrite Nat.eqb_refl. split; [reflexivity|]. split; [reflexivity|]. intros idx Hi. rewrite (A1 _ (IN idx Hi)). ring. }
    unfold apply_inverse. cbn [d_class]. fold (scalarized (ashape data) b).
    destruct (direct_ok div data (scalarized (ashape data) b) x) as (y & Ey & Y); [apply scalarized_fits; auto|]. exists y. left. split; [exact Ey|].
    eapply elementwise_ext; [exact Y|]. intros idx I. cbv beta. rewrite scalarized_coefficient. reflexivity. }
  assert (G' : exists y, apply_inverse div (diagonal data b) x = Ok y /\ ashape y = ashape x /\ forall idx, inside (ashape x) idx -> rmul (aval y idx) (coefficient b data idx) = aval x idx).
  { destruct G as (y & [[Ey [Y1 Y2]]|G]); [|exact G]. exists y. split; [auto|]. split; [auto|]. intros idx Hi. rewrite Y2 by auto. apply HD. apply NZ. eapply coefficient_in; eauto. }
  destruct G' as (y & Ey & Y1 & Y2). destruct (apply_diagonal data b y) as (z & Ez & Z1 & Z2); [rewrite Y1; auto|]. exists y, z. split; [auto|]. split; [auto|]. split; [congruence|].
  intros idx Hi. rewrite Z1, Y1 in Hi. rewrite Z2 by congruence. rewrite <- Y2 by auto. ring.
Qed.

(** ** More on inspect_special_values *)
Context (H10 : (r1 : K) <> r0).
Context (Hm0 : ropp (r1 : K) <> r0).
Context (Hm1 : ropp (r1 : K) <> r1).
Lemma deq_iff (x y : K) : deq x y = false <-> x <> y.
Proof. split; [apply deq_false|]. intros N. destruct (deq x y) eqn:E; auto. apply deq_true in E. congruence. Qed.
Lemma three_values x : (zero_b x = deq x (r0 : K)) /\ one_b x = deq x (r1 : K) /\ mone_b x = deq x (ropp (r1 : K)).
Proof.
  unfold zero_b, one_b, mone_b. split; [reflexivity|]. destruct (deq x r0) eqn:E0.
  - apply deq_true in E0. subst. cbn. split; symmetry; apply deq_iff; congruence.
  - destruct (deq x r1) eqn:E1; cbn; auto. apply deq_true in E1. subst. split; auto. symmetry. apply deq_iff. congruence.
Qed.
Lemma cnt_occurrences (v : list K) : cnt mone_b v = occurrences (ropp r1) v /\ cnt zero_b v = occurrences r0 v /\ cnt one_b v = occurrences r1 v.
Proof.
  unfold cnt, occurrences. repeat split; f_equal; apply filter_ext; intros x; destruct (three_values x) as (A & B & D); auto.
Qed.
Lemma inspect_exact (v0 : K) v' : let v := v0 :: v' in
  ((forall x, In x v -> x = r0 \/ x = r1 \/ x = ropp r1) ->
     inspect v = (occurrences (ropp r1) v, occurrences r0 v, occurrences r1 v, false, forallb (fun x => deq x v0) v)) /\
  ((exists x, In x v /\ x <> r0 /\ x <> r1 /\ x <> ropp r1) -> inspect v = (0, 0, 0, true, forallb (fun x => deq x v0) v)).
Proof.
  intros v. unfold inspect. cbn [inspect]. change (v0 :: v') with v.
  assert (E : match v with [] => (0, 0, 0, false, false) | value0 :: _ => inspect_loop value0 v 0 0 0 false true end = inspect_loop v0 v 0 0 0 false true) by reflexivity.
  rewrite E, loop_exact by discriminate. cbn [orb andb plus]. destruct (cnt_occurrences v) as (C1 & C2 & C3). rewrite C1, C2, C3. split.
  - intros H. assert (forallb three_b v = true) as ->; [|reflexivity]. apply forallb_forall. intros x Hx. unfold three_b. destruct (three_values x) as (-> & -> & ->).
    destruct (H x Hx) as [->|[->| ->]]; rewrite deq_refl, ?orb_true_r; reflexivity.
  - intros (x & Hx & N0 & N1 & Nm). assert (forallb three_b v = false) as ->; [|reflexivity].
    destruct (forallb three_b v) eqn:F; auto. rewrite forallb_forall in F. specialize (F x Hx). unfold three_b in F. destruct (three_values x) as (T0 & T1 & T2).
    rewrite T0, T1, T2 in F. apply deq_iff in N0, N1, Nm. rewrite N0, N1, Nm in F. discriminate.
Qed.

Lemma occurrences_all (c : K) v : (forall x, In x v -> x = c) -> occurrences c v = length v.
Proof.
  unfold occurrences. induction v as [|a v IH]; intros H; auto. cbn. rewrite (H a (or_introl eq_refl)), deq_refl. cbn. rewrite IH; auto. intros x Hx. apply H. right; auto.
Qed.
Lemma occurrences_none (c : K) v : ~ In c v -> occurrences c v = 0.
Proof.
  unfold occurrences. induction v as [|a v IH]; intros H; auto. cbn. destruct (deq a c) eqn:E; [apply deq_true in E; exfalso; apply H; left; auto|].
  apply IH. intros Hc. apply H. right; auto.
Qed.
Lemma occurrences_lt (c : K) v x : In x v -> x <> c -> occurrences c v <> length v.
Proof. intros Hx N E. assert (deq x c = true) as D by (apply (cnt_all (fun x => deq x c) v E x Hx)). apply deq_true in D. congruence. Qed.
Lemma two_values (a c : K) v : a <> c -> (forall x, In x v -> x = a \/ x = c) -> occurrences a v + occurrences c v = length v.
Proof.
  intros N. unfold occurrences. induction v as [|x v IH]; intros H; auto. cbn [filter]. specialize (IH (fun y Hy => H y (or_intror Hy))).
  destruct (H x (or_introl eq_refl)) as [->| ->]; rewrite deq_refl.
  - assert (deq a c = false) as -> by (apply deq_iff; auto). cbn. lia.
  - assert (deq c a = false) as -> by (apply deq_iff; auto). cbn. lia.
Qed.
Lemma all_same_b (c0 c : K) v : (forall x, In x (c0 :: v) -> x = c) -> forallb (fun x => deq x c0) (c0 :: v) = true.
Proof. intros H. apply forallb_forall. intros x Hx. rewrite (H x Hx), (H c0 (or_introl eq_refl)). apply deq_refl. Qed.

Lemma homothety_class (c : K) sh : c <> r0 -> c <> r1 -> d_class (homothety c sh) = Homothety c.
Proof.
  intros N0 N1. unfold homothety. destruct (inspect [c]) as [[[[m z] o] ?] ?] eqn:E. apply inspect_sound in E. destruct E as [P1 P2 P3 P4 P5].
  destruct (Nat.eqb_spec z 1) as [E1|]; [exfalso; apply N0, P2; [exact E1|left; auto]|].
  destruct (Nat.eqb_spec o 1) as [E1|]; [exfalso; apply N1, P3; [exact E1|left; auto]|]. reflexivity.
Qed.
Lemma homothety_mone sh : d_inv (homothety (ropp (r1 : K)) sh) = true.
Proof.
  unfold homothety. destruct (inspect_exact (ropp r1) []) as [E _]. cbn zeta in E. rewrite E; [|intros x [<-|[]]; auto]. clear E.
  rewrite (occurrences_none r0), (occurrences_none r1), (occurrences_all (ropp r1)); try (intros [|[]]; congruence). 2: intros x [<-|[]]; auto. reflexivity.
Qed.
Lemma kind (data : array K) b : ravel data <> [] ->
  ((forall x, In x (ravel data) -> x = r0) -> d_class (diagonal data b) = Zero) /\
  ((forall x, In x (ravel data) -> x = r1) -> d_class (diagonal data b) = Identity) /\
  (forall c, c <> r0 -> c <> r1 -> (forall x, In x (ravel data) -> x = c) -> d_class (diagonal data b) = Homothety c) /\
  ((forall x, In x (ravel data) -> x = r0 \/ x = r1) -> In r0 (ravel data) -> In r1 (ravel data) -> exists m b', d_class (diagonal data b) = Mask m b') /\
  ((forall x, In x (ravel data) -> x = r1 \/ x = ropp r1) -> d_inv (diagonal data b) = true).
Proof.
  intros NE. destruct (ravel data) as [|c0 v'] eqn:Ev; [congruence|]. destruct (inspect_exact c0 v') as [X1 X2]. cbn zeta in X1, X2. rewrite <- Ev in *. split; [|split; [|split; [|split]]].
  - intros H. unfold diagonal. rewrite X1 by (intros x Hx; left; auto). rewrite (occurrences_all r0), Nat.eqb_refl by auto. reflexivity.
  - intros H. unfold diagonal. rewrite X1 by (intros x Hx; right; left; auto).
    rewrite (occurrences_none r0), (occurrences_all r1) by (auto; intros Hx%H; congruence). rewrite Nat.eqb_refl. rewrite Ev at 1. reflexivity.
  - intros c N0 N1 H. assert (S : forallb (fun x => deq x c0) (ravel data) = true) by (rewrite Ev in *; eapply all_same_b; eauto).
    assert (c0 = c) by (apply H; rewrite Ev; left; auto). subst c0. unfold diagonal.
    assert (L : forall k, 0 = length (ravel data) -> k) by (rewrite Ev; discriminate).
    assert (exists m, inspect (ravel data) = (m, 0, 0, negb (deq c (ropp r1)), true)) as [m ->].
    { destruct (deq c (ropp r1)) eqn:D.
      - apply deq_true in D. rewrite X1, S by (intros x Hx; rewrite (H x Hx); auto). rewrite (occurrences_none r0), (occurrences_none r1) by (intros Hx%H; congruence). eauto.
      - apply deq_iff in D. rewrite X2, S; [eauto|]. exists c. split; [rewrite Ev; left; auto|auto]. }
    destruct (Nat.eqb_spec 0 (length (ravel data))) as [Q|_]; [apply L; exact Q|]. rewrite Ev at 1. apply homothety_class; auto.
  - intros H I0 I1. unfold diagonal. rewrite X1 by (intros x Hx; destruct (H x Hx); auto).
    destruct (Nat.eqb_spec (occurrences r0 (ravel data)) (length (ravel data))) as [Q|_]; [exfalso; eapply occurrences_lt; [exact I1| |exact Q]; auto|].
    destruct (Nat.eqb_spec (occurrences r1 (ravel data)) (length (ravel data))) as [Q|_]; [exfalso; eapply occurrences_lt; [exact I0| |exact Q]; auto|].
    assert (forallb (fun x => deq x c0) (ravel data) = false) as ->.
    { destruct (forallb _ _) eqn:F; auto. rewrite forallb_forall in F. assert (A := deq_true _ _ (F _ I0)). assert (B := deq_true _ _ (F _ I1)). congruence. }
    rewrite Nat.add_comm, (two_values r0 r1) by auto. rewrite Nat.eqb_refl. unfold mask.
    set (M := ravel (Arr (ashape data) (fun idx => deq (aval data idx) r0))).
    assert (MI : forall x, In x (ravel data) -> In (deq x r0) M). { intros x Hx. unfold M, ravel in *. cbn [ashape aval]. apply in_map_iff in Hx as (idx & <- & Hi). apply in_map_iff. eauto. }
    destruct (inspect_bool M) as [[[[? z] o] ?] ?] eqn:EB. apply bool_sound in EB as [B1 B2].
    destruct (Nat.eqb_spec z (length M)) as [Q|NQ]. { exfalso. apply MI in I0. apply (B1 Q) in I0. rewrite deq_refl in I0. discriminate. }
    destruct (Nat.eqb_spec o (length M)) as [Q|_]. { exfalso. apply MI in I1. apply (B2 Q NQ) in I1. apply deq_true in I1. auto. }
    cbn [d_class]. eauto.
  - intros H. unfold diagonal. rewrite X1 by (intros x Hx; destruct (H x Hx); auto).
    rewrite (occurrences_none r0) by (intros Hx%H; destruct Hx; congruence).
    destruct (Nat.eqb_spec 0 (length (ravel data))) as [Q|_]; [rewrite Ev in Q; discriminate|].
    destruct (Nat.eqb_spec (occurrences r1 (ravel data)) (length (ravel data))) as [Q|NQ]; [reflexivity|].
    destruct (forallb (fun x => deq x c0) (ravel data)) eqn:F.
    + rewrite Ev at 1. destruct (H c0) as [->| ->]; [rewrite Ev; left; auto| |apply homothety_mone].
      exfalso. apply NQ. apply occurrences_all. rewrite forallb_forall in F. intros x Hx. apply deq_true, F, Hx.
    + rewrite Nat.add_0_r. destruct (Nat.eqb_spec (occurrences r1 (ravel data)) (length (ravel data))) as [Q|_]; [congruence|].
      cbn [d_inv]. apply Nat.eqb_eq. apply two_values; [congruence|]. intros x Hx. destruct (H x Hx); auto.
Qed.
End Rules.



(** ** as_strided *)
Lemma contiguous_ok size s : snd (contiguous_strides size s) = (size * Z.of_nat (fold_right Nat.mul 1%nat s))%Z /\ length (fst (contiguous_strides size s)) = length s /\
  forall idx, dot idx (fst (contiguous_strides size s)) = dot (project s idx) (c_strides size s).
Proof.
  induction s as [|n s (IH1 & IH2 & IH3)]; [cbn; repeat split; [lia|intros [|i idx]; reflexivity]|].
  cbn [contiguous_strides]. destruct (contiguous_strides size s) as [st v]. cbn [fst snd] in *. destruct (Nat.eqb_spec n 1) as [->|N]; cbn [fst snd length].
  - repeat split; [|lia|]. { rewrite IH1. f_equal. cbn [fold_right]. lia. } intros [|i idx]; [reflexivity|]. cbn [dot project c_strides]. rewrite IH3. cbn [Nat.eqb dot]. lia.
  - repeat split; [|lia|]. { rewrite IH1. cbn [fold_right]. lia. }
    intros [|i idx]; [reflexivity|]. cbn [dot project c_strides]. destruct (Nat.eqb_spec n 1); [congruence|]. cbn [dot]. rewrite IH3, IH1. lia.
Qed.
Lemma dot_zeros_right idx st k : dot idx (st ++ repeat 0%Z k) = dot idx st.
Proof.
  assert (G : forall k idx, dot idx (repeat 0%Z k) = 0%Z).
  { clear. induction k as [|k IH]; intros [|i idx]; cbn; auto. rewrite IH. lia. }
  revert idx. induction st as [|a st IH]; intros [|i idx]; cbn [app]; rewrite ?G; auto. cbn [dot]. rewrite IH. reflexivity.
Qed.
Lemma dot_zeros_left k idx st : dot idx (repeat 0%Z k ++ st) = dot (skipn k idx) st.
Proof. revert idx. induction k as [|k IH]; intros idx; auto. destruct idx as [|i idx]; cbn [repeat app dot skipn]; [destruct st; reflexivity|]. rewrite IH. lia. Qed.
Lemma project_snoc d a idx i : length d = length idx -> project (d ++ [a]) (idx ++ [i]) = project d idx ++ [if Nat.eqb a 1 then 0 else i].
Proof. revert idx. induction d as [|n d IH]; intros [|j idx] H; try discriminate; auto. cbn in *. rewrite IH by lia. reflexivity. Qed.
Lemma project_rev d idx : length d = length idx -> rev (project (rev d) (rev idx)) = project d idx.
Proof.
  revert idx. induction d as [|n d IH]; intros [|i idx] H; try discriminate; auto. cbn [rev]. rewrite project_snoc by (rewrite !rev_length; cbn in H; lia).
  rewrite rev_app_distr. cbn [rev app project]. rewrite IH by (cbn in H; lia). reflexivity.
Qed.
Lemma project_prefix d idx jdx : length d <= length idx -> project d (idx ++ jdx) = project d idx.
Proof. revert idx. induction d as [|n d IH]; intros [|i idx] H; cbn in *; auto; try lia. rewrite IH by lia. reflexivity. Qed.
Lemma stretches_length d s : stretches d s -> length d <= length s.
Proof. revert s. induction d as [|n d IH]; intros [|m s] H; cbn in *; try lia; try tauto. destruct H as [_ H]. apply IH in H. lia. Qed.

Lemma as_strided_ok x size b shape idx : st_strides x = c_strides size (st_shape x) -> fits b (st_shape x) shape -> inside shape idx ->
  address (as_strided x size b shape) idx = address x (facing b (st_shape x) idx).
Proof.
  intros C F I. unfold address, as_strided. cbn [st_base st_strides]. rewrite C. destruct (contiguous_ok size (st_shape x)) as (_ & _ & D).
  assert (LI : length shape = length idx) by (symmetry; apply inside_length; auto).
  assert (HL : b <> Rightward -> dot idx (repeat 0%Z (length shape - length (st_shape x)) ++ fst (contiguous_strides size (st_shape x))) = dot (rev (project (rev (st_shape x)) (rev idx))) (c_strides size (st_shape x))).
  { intros N. apply (fits_left b _ _ N) in F. apply stretches_length in F. rewrite !rev_length in F. rewrite dot_zeros_left, D. f_equal.
    set (k := length shape - length (st_shape x)). rewrite <- (firstn_skipn k idx) at 2. rewrite rev_app_distr.
    rewrite project_prefix by (rewrite !rev_length, skipn_length; unfold k; lia). symmetry. apply project_rev. rewrite skipn_length. unfold k. lia. }
  f_equal. destruct b; try (apply HL; congruence). rewrite dot_zeros_right. apply D.
Qed.
