(** Proofs for C53: the block operators. *)
From Verif Require Import Base Algebra SeqModel BlockModel BlockSpec BlockProofs BlockRules DiagModel DiagRulesModel DiagSpec DiagProofs DiagRules DistModel DistSpec DistProofs.

Section Blocks.
Context {K : dring}.
Lemma stretched_aeq {A} (x x' : array A) idx : aeq x x' -> inside (ashape x) idx -> stretched x idx = stretched x' idx.
Proof. intros [S E] I. rewrite !stretched_same; auto. rewrite <- S; auto. Qed.
Lemma transpose_aeq {A} (x x' : array A) : aeq x x' -> aeq (DiagModel.transpose x) (DiagModel.transpose x').
Proof.
  intros [S E]. split; cbn; [congruence|]. intros idx I. apply E. apply inside_rev in I. rewrite rev_involutive in I. exact I.
Qed.
Lemma ufunc2_out_aeq {A B C} (f : A -> B -> C) (x x' : array A) (d : array B) y : aeq x x' -> ufunc2_out f x d (ashape x) = Ok y ->
  exists y', ufunc2_out f x' d (ashape x') = Ok y' /\ aeq y y'.
Proof.
  intros Q. assert (Q' := Q). destruct Q as [S E]. unfold ufunc2_out. rewrite <- S. destruct (bc _ _); [|discriminate]. cbn [rbind]. destruct (bc _ _); [|discriminate]. cbn [rbind].
  destruct (shape_eqb _ _); [|discriminate]. intros [= <-]. eexists. split; [reflexivity|]. split; [reflexivity|]. cbn [ashape aval]. intros idx I. f_equal.
  apply stretched_aeq; auto.
Qed.
Lemma apply_aeq (op : diag K) (x x' y : array K) : aeq x x' -> apply op x = Ok y -> exists y', apply op x' = Ok y' /\ aeq y y'.
Proof.
  intros Q. assert (Q' := Q). destruct Q' as [S _]. unfold apply. rewrite <- S. destruct (match d_shape op with Some _ => _ | None => _ end); [|discriminate]. cbn [rbind].
  assert (R : forall {B} (f : K -> B -> K) (d : array B) y, (r <- ufunc2_out f (DiagModel.transpose x) (DiagModel.transpose d) (rev (ashape x)) ;; Ok (DiagModel.transpose r)) = Ok y ->
     exists y', (r <- ufunc2_out f (DiagModel.transpose x') (DiagModel.transpose d) (rev (ashape x')) ;; Ok (DiagModel.transpose r)) = Ok y' /\ aeq y y').
  { intros B f d y0. destruct (ufunc2_out f (DiagModel.transpose x) _ _) as [r|] eqn:E; [|discriminate]. intros [= <-].
    destruct (ufunc2_out_aeq f _ _ _ _ (transpose_aeq _ _ Q) E) as (r' & E' & R'). change (rev (ashape x')) with (ashape (DiagModel.transpose x')). rewrite E'. cbn [rbind].
    eexists. split; [reflexivity|]. apply transpose_aeq; auto. }
  destruct (d_class op) as [| |c|m b|d b].
  - intros [= <-]. eexists. split; [reflexivity|]. split; auto.
  - intros [= <-]. eauto.
  - apply ufunc2_out_aeq; auto.
  - unfold mask_direct. destruct b; try (apply ufunc2_out_aeq; auto). apply R.
  - unfold diagonal_direct. destruct b; try (apply ufunc2_out_aeq; auto). apply R.
Qed.
Lemma blk_of_aeq (op : diag K) (x x' y : array K) : aeq x x' -> apply op x = Ok y -> aeq y (k_fun (blk_of op) x').
Proof. intros Q E. destruct (apply_aeq op x x' y Q E) as (y' & E' & Y). cbn. rewrite E'. exact Y. Qed.

Lemma announced_sizes axin axout pout po : announced axin axout pout po -> sizes pout po.
Proof. intros H. induction H as [|o n pout po Q H IH]; constructor; auto. destruct Q as [->|[-> _]]; auto. Qed.
Lemma some_sizes p : sizes (map Some p) p.
Proof. induction p; constructor; auto. Qed.
Lemma zip_ops {T} (f : T -> blk K -> blk K) ts (ks : list (blk K)) k b' : nth_error (zip_with f ts ks) k = Some b' ->
  exists t b, nth_error ts k = Some t /\ nth_error ks k = Some b /\ b' = f t b.
Proof. apply zip_error. Qed.
Lemma nth_error_nth' {T} (l : list T) k t d : nth_error l k = Some t -> nth k l d = t.
Proof. apply nth_error_nth. Qed.

Theorem diag_block_acts add inf (op : diag K) (q q' : blockop K) pi po (x y z : array K) : made op ->
  acts q pi po x y -> apply op y = Ok z ->
  (forall axout ao, q_out q = Some axout -> position axout (length (ashape y)) = Some ao -> diag_ready op (q_shapeout q) (ashape y) axout ao) ->
  diag_block add inf op q = Ok (Some q') ->
  (forall axin axout, q_in q = Some axin -> q_out q = Some axout -> announced axin axout inf po) ->
  acts q' pi po x z.
Proof.
  intros M HA Y R E HI. unfold diag_block, distribute in E.
  destruct (split_diag _ _ _ _ _) as [[ops|]|] eqn:ES; try discriminate. cbn [rbind] in E. injection E as <-.
  assert (SZ := apply_shape op y z (made_wf op M) Y).
  unfold acts in *. unfold rebuild, construct. destruct (q_in q) as [axin|] eqn:QI, (q_out q) as [axout|] eqn:QO.
  - destruct HA as (ai & ao & pout & PI & PO & AN & L1 & L2 & P1 & P2 & HB). cbn [q_in q_out q_pin q_pout q_ops]. rewrite PO in ES.
    destruct (split_diag_ok op _ _ _ _ _ _ _ _ _ M P2 (announced_sizes _ _ _ _ AN) (R _ _ eq_refl (proj1 P2)) L2 ES Y) as [L3 H].
    exists ai, ao, inf. split; [exact PI|]. split; [reflexivity|]. split; [auto|]. split; [rewrite zip_length; congruence|]. split; [rewrite zip_length; congruence|].
    split; [exact P1|]. split; [rewrite SZ; exact P2|]. intros k b' HZ. destruct (zip_ops _ _ _ _ _ HZ) as (t & b0 & T & B0 & ->).
    destruct (H k t) as (y' & E' & Y'); [apply nth_error_lt in T; lia|]. rewrite (nth_error_nth' _ _ _ _ T) in E'.
    apply (blk_of_aeq t _ _ _ (HB k b0 B0)) in E'. cbn [comp k_fun]. apply (aeq_trans _ _ _ (aeq_sym _ _ Y') E').
  - destruct HA as (ai & PI & PO & _). rewrite PO in ES. unfold split_diag, rule_block in ES. destruct (d_class op); discriminate.
  - destruct HA as (ao & PI & PO & L2 & P2 & HB). cbn [q_in q_out q_pin q_pout q_ops]. rewrite PO in ES.
    destruct (split_diag_ok op _ _ _ _ _ _ _ _ _ M P2 (some_sizes _) (R _ _ eq_refl (proj1 P2)) L2 ES Y) as [L3 H].
    exists ao. split; [exact PI|]. split; [exact PO|]. split; [rewrite zip_length; congruence|]. split; [rewrite SZ; exact P2|].
    intros k b' HZ. destruct (zip_ops _ _ _ _ _ HZ) as (t & b0 & T & B0 & ->).
    destruct (H k t) as (y' & E' & Y'); [apply nth_error_lt in T; lia|]. rewrite (nth_error_nth' _ _ _ _ T) in E'.
    apply (blk_of_aeq t _ _ _ (HB k b0 B0)) in E'. cbn [comp k_fun]. apply (aeq_trans _ _ _ (aeq_sym _ _ Y') E').
  - destruct HA.
Qed.

Theorem block_diag_acts add inf (op : diag K) (q q' : blockop K) pi po (x z y : array K) : made op -> Forall BlockSpec.proper (q_ops q) ->
  (q_out q = None -> q_oper q = add) -> apply op x = Ok z -> acts q pi po z y ->
  (forall axin ai, q_in q = Some axin -> position axin (length (ashape x)) = Some ai -> diag_ready op (q_shapein q) (ashape x) axin ai) ->
  block_diag add inf q op = Ok (Some q') ->
  (forall axin axout, q_in q = Some axin -> q_out q = Some axout -> announced axin axout inf po) ->
  acts q' pi po x y.
Proof.
  intros M PR OP Z HA R E HI. unfold block_diag, distribute in E.
  destruct (split_diag _ _ _ _ _) as [[ops|]|] eqn:ES; try discriminate. cbn [rbind] in E. injection E as <-.
  assert (SZ := apply_shape op x z (made_wf op M) Z).
  unfold acts in *. unfold rebuild, construct. destruct (q_in q) as [axin|] eqn:QI, (q_out q) as [axout|] eqn:QO.
  - destruct HA as (ai & ao & pout & PI & PO & AN & L1 & L2 & P1 & P2 & HB). cbn [q_in q_out q_pin q_pout q_ops]. rewrite PI in ES. rewrite SZ in P1.
    destruct (split_diag_ok op _ _ _ _ _ _ _ _ _ M P1 (some_sizes _) (R _ _ eq_refl (proj1 P1)) L1 ES Z) as [L3 H].
    exists ai, ao, inf. split; [exact PI|]. split; [reflexivity|]. split; [auto|]. split; [rewrite zip_length; congruence|]. split; [rewrite zip_length; congruence|].
    split; [exact P1|]. split; [exact P2|]. intros k b' HZ. destruct (zip_ops _ _ _ _ _ HZ) as (t & b0 & T & B0 & ->).
    destruct (H k t) as (y' & E' & Y'); [apply nth_error_lt in T; lia|]. rewrite (nth_error_nth' _ _ _ _ T) in E'.
    apply (aeq_trans _ _ _ (HB k b0 B0)). cbn [comp k_fun blk_of]. rewrite E'. apply (proper_nth _ _ _ PR B0). apply aeq_sym; auto.
  - destruct HA as (ai & PI & PO & NE & L1 & P1 & HS & HV). cbn [q_in q_out q_pin q_pout q_ops q_oper]. rewrite PI in ES. rewrite SZ in P1.
    destruct (split_diag_ok op _ _ _ _ _ _ _ _ _ M P1 (some_sizes _) (R _ _ eq_refl (proj1 P1)) L1 ES Z) as [L3 H].
    assert (HB : forall k b', nth_error (zip_with (fun d o => comp o (blk_of d)) ops (q_ops q)) k = Some b' ->
       exists b0, nth_error (q_ops q) k = Some b0 /\ aeq (k_fun b0 (piece axin ai pi k z)) (k_fun b' (piece axin ai pi k x))).
    { intros k b' HZ. destruct (zip_ops _ _ _ _ _ HZ) as (t & b0 & T & B0 & ->). exists b0. split; auto.
      destruct (H k t) as (y' & E' & Y'); [apply nth_error_lt in T; lia|]. rewrite (nth_error_nth' _ _ _ _ T) in E'.
      cbn [comp k_fun blk_of]. rewrite E'. apply (proper_nth _ _ _ PR B0). apply aeq_sym; auto. }
    assert (LZ : length (zip_with (fun d o => comp o (blk_of d)) ops (q_ops q)) = length (q_ops q)) by (rewrite zip_length; congruence).
    exists ai. split; [exact PI|]. split; [exact PO|]. split. { intros N. rewrite N in LZ. destruct (q_ops q); [congruence|discriminate]. }
    split; [congruence|]. split; [exact P1|]. split.
    + intros k b' HZ. destruct (HB k b' HZ) as (b0 & B0 & Q). rewrite <- (proj1 Q). auto.
    + intros idx d Hi. rewrite (HV idx d Hi), <- (OP eq_refl). apply (total_shape (q_oper q) _ _ (ashape y)); auto.
      * rewrite !outputs_length. auto.
      * intros k d' Hk. rewrite outputs_length in Hk. destruct (lt_nth_error (q_ops q) k Hk) as (b & Hb). rewrite (outputs_nth _ _ _ _ _ _ _ _ Hb). apply HS; auto.
      * intros k d' Hk. rewrite outputs_length in Hk. destruct (lt_nth_error (zip_with (fun d o => comp o (blk_of d)) ops (q_ops q)) k ltac:(lia)) as (b' & Hb').
        destruct (HB k b' Hb') as (b0 & B0 & Q). rewrite (outputs_nth _ _ _ _ _ _ _ _ B0), (outputs_nth _ _ _ _ _ _ _ _ Hb'). exact Q.
  - destruct HA as (ao & PI & PO & _). rewrite PI in ES. unfold split_diag, rule_block in ES. destruct (d_class op); discriminate.
  - destruct HA.
Qed.

Theorem diag_with_block_acts oper add inf (op : diag K) (q q' : blockop K) ax pi (x y z : array K) : made op ->
  q_in q = Some ax -> q_out q = Some ax -> ashape y = ashape x -> acts q pi pi x y -> apply op x = Ok z ->
  (forall a, position ax (length (ashape x)) = Some a -> diag_ready op (q_shapeout q) (ashape x) ax a) ->
  diag_with_block oper add inf op q = Ok (Some q') -> announced ax ax inf pi ->
  acts q' pi pi x (both oper z y).
Proof.
  intros M QI QO SY HA Z R E HI. unfold diag_with_block, distribute in E.
  destruct (split_diag _ _ _ _ _) as [[ops|]|] eqn:ES; try discriminate. cbn [rbind] in E. injection E as <-.
  assert (SZ := apply_shape op x z (made_wf op M) Z).
  unfold acts in *. unfold rebuild, construct. rewrite QI, QO in *.
  destruct HA as (ai & ao & pout & PI & PO & AN & L1 & L2 & P1 & P2 & HB). cbn [q_in q_out q_pin q_pout q_ops]. rewrite PO in ES.
  assert (ao = ai) as ->. { destruct P1 as [P1 _], P2 as [P2 _]. rewrite SY in P2. congruence. }
  destruct (split_diag_ok op _ _ _ _ _ _ _ _ _ M P1 (announced_sizes _ _ _ _ AN) (R _ (proj1 P1)) L1 ES Z) as [L3 H].
  exists ai, ai, inf. split; [exact PI|]. split; [reflexivity|]. split; [auto|]. split; [rewrite zip_length; congruence|]. split; [rewrite zip_length; congruence|].
  split; [exact P1|]. split; [cbn; rewrite SZ; exact P1|]. intros k b' HZ. destruct (zip_ops _ _ _ _ _ HZ) as (t & b0 & T & B0 & ->).
  destruct (H k t) as (y' & E' & Y'); [apply nth_error_lt in T; lia|]. rewrite (nth_error_nth' _ _ _ _ T) in E'. cbn [comm k_fun blk_of]. rewrite E'.
  specialize (HB k b0 B0). destruct HB as [S1 V1], Y' as [S2 V2]. split.
  - rewrite piece_shape'. cbn [both ashape]. rewrite <- piece_shape'. cbn. symmetry. exact S2.
  - intros idx I. rewrite piece_shape' in I. cbn [both ashape] in I. rewrite piece_val. cbn [both aval]. rewrite <- !(piece_val ax ai pi k). f_equal.
    + symmetry. apply V2. rewrite S2, piece_shape'. exact I.
    + apply V1. rewrite piece_shape', SY, <- SZ. exact I.
Qed.

Theorem const_with_block_acts oper add inf (op : constop K) (q q' : blockop K) pi po (x y c : array K) : kmade op ->
  Forall BlockSpec.proper (q_ops q) -> acts q pi po x y -> constant_apply op (ashape y) = Ok c ->
  (forall axout ao, q_out q = Some axout -> position axout (length (ashape y)) = Some ao -> const_ready op (q_shapeout q) (ashape y) axout ao) ->
  const_with_block oper add inf op q = Ok (Some q') ->
  (forall axin axout, q_in q = Some axin -> q_out q = Some axout -> announced axin axout inf po) ->
  acts q' pi po x (both oper c y).
Proof.
  intros M PR HA Y R E HI. unfold const_with_block, distribute in E.
  destruct (split_const _ _ _ _ _) as [[ops|]|] eqn:ES; try discriminate. cbn [rbind] in E. injection E as <-.
  assert (SC : ashape c = ashape y). { assert (X := const_applied op _ _ (kmade_cwf op M) Y). destruct (cdata op). apply X. }
  assert (HK : forall ax a p (b : blk K) t k x0, k < length p -> aeq (piece ax a p k y) (k_fun b x0) ->
     (exists c', constant_apply t (ashape (piece ax a p k y)) = Ok c' /\ aeq c' (piece ax a p k c)) ->
     aeq (piece ax a p k (both oper c y)) (k_fun (comm_const oper t b) x0)).
  { intros ax a p b t k x0 Hk [S1 V1] (c' & E' & [S2 V2]). cbn [comm_const k_fun]. rewrite <- S1, E'. split.
    - rewrite piece_shape'. cbn [both ashape]. rewrite SC, <- piece_shape'. reflexivity.
    - intros idx I. rewrite piece_shape' in I. cbn [both ashape] in I. rewrite SC in I. rewrite piece_val. cbn [both aval]. rewrite <- !(piece_val ax a p k). f_equal.
      + symmetry. apply V2. rewrite S2, piece_shape', SC. exact I.
      + apply V1. rewrite piece_shape'. exact I. }
  unfold acts in *. unfold rebuild, construct. destruct (q_in q) as [axin|] eqn:QI, (q_out q) as [axout|] eqn:QO.
  - destruct HA as (ai & ao & pout & PI & PO & AN & L1 & L2 & P1 & P2 & HB). cbn [q_in q_out q_pin q_pout q_ops]. rewrite PO in ES.
    destruct (split_const_ok op _ _ _ _ _ _ _ _ _ M P2 (announced_sizes _ _ _ _ AN) (R _ _ eq_refl (proj1 P2)) L2 ES Y) as [L3 H].
    exists ai, ao, inf. split; [exact PI|]. split; [reflexivity|]. split; [auto|]. split; [rewrite zip_length; congruence|]. split; [rewrite zip_length; congruence|].
    split; [exact P1|]. split; [cbn [both ashape]; rewrite SC; exact P2|]. intros k b' HZ. destruct (zip_ops _ _ _ _ _ HZ) as (t & b0 & T & B0 & ->).
    assert (Hk : k < length po) by (apply nth_error_lt in T; lia). specialize (H k t Hk). rewrite (nth_error_nth' _ _ _ _ T) in H. apply HK; auto.
  - destruct HA as (ai & PI & PO & _). rewrite PO in ES. unfold split_const, rule_block in ES. destruct (c_class op); discriminate.
  - destruct HA as (ao & PI & PO & L2 & P2 & HB). cbn [q_in q_out q_pin q_pout q_ops]. rewrite PO in ES.
    destruct (split_const_ok op _ _ _ _ _ _ _ _ _ M P2 (some_sizes _) (R _ _ eq_refl (proj1 P2)) L2 ES Y) as [L3 H].
    exists ao. split; [exact PI|]. split; [exact PO|]. split; [rewrite zip_length; congruence|]. split; [cbn [both ashape]; rewrite SC; exact P2|].
    intros k b' HZ. destruct (zip_ops _ _ _ _ _ HZ) as (t & b0 & T & B0 & ->).
    assert (Hk : k < length po) by (apply nth_error_lt in T; lia). specialize (H k t Hk). rewrite (nth_error_nth' _ _ _ _ T) in H. apply HK; auto.
  - destruct HA.
Qed.

(** The rule is used whenever the shape of the arrays is known. *)
Lemma known_some p : known (map Some p) = Ok p.
Proof. unfold known. induction p as [|n p IH]; [reflexivity|]. cbn. rewrite IH. reflexivity. Qed.
Lemma unknown_some p : existsb is_unknown (map Some p) = false.
Proof. induction p; auto. Qed.
Lemma rule_block_known {A} (d : array A) b s ax p a : partitioned ax p s a -> (0 <= axis_value ax)%Z -> (b = Disabled -> ashape d = s) ->
  exists r, rule_block d b (Some s) (Some (map Some p)) (Some ax) = Ok r /\ r <> Nothing.
Proof.
  intros P N DS. unfold rule_block. rewrite unknown_some. cbn [andb]. destruct (decide b (length (ashape d)) (Some s) ax) as [| |ax'] eqn:D.
  - exfalso. unfold decide in D. cbv zeta in D. destruct b; try (destruct (_ <? _)%Z); discriminate.
  - eexists. split; [reflexivity|discriminate].
  - rewrite known_some. cbn [rbind]. assert (P' : partitioned ax' p s a).
    { unfold decide in D. cbv zeta in D. destruct b; try (destruct (_ <? _)%Z; [discriminate|]); injection D as <-; auto. apply partitioned_shift; auto. }
    destruct (reads ax' a p (spread b d (Some s)) P') as (l & E & _). rewrite E. eexists. split; [reflexivity|discriminate].
Qed.
Lemma rmap_pure {X Y} (f : X -> Y) l : rmap (fun x => Ok (f x)) l = Ok (map f l).
Proof. induction l as [|x l IH]; [reflexivity|]. cbn. rewrite IH. reflexivity. Qed.
Lemma parts_of_pure {A T} (same : T) (f : array A -> T) n r : r <> Nothing -> exists ts, parts_of same (fun d => Ok (f d)) n (Ok r) = Ok (Some ts).
Proof. intros H. destruct r as [| |l]; [congruence| |]; cbn; [eauto|]. rewrite rmap_pure. cbn. eauto. Qed.
Theorem split_diag_known (op : diag K) n s ax p a : made op -> partitioned ax p s a -> (0 <= axis_value ax)%Z ->
  (exists x y, ashape x = s /\ apply op x = Ok y) ->
  d_class op <> Zero -> (forall c, d_class op <> Homothety c) -> exists ops, split_diag op n (Some s) (Some (map Some p)) (Some ax) = Ok (Some ops).
Proof.
  intros M P N (x & y & <- & Y) Z H. apply made_wf in M. unfold split_diag. destruct (d_class op) as [| |c|m b|d b] eqn:C; [congruence| |destruct (H c); auto| |].
  - destruct (rule_block_known (scalar (A := K) r1) Scalar _ ax p a P N) as (r & -> & R); [discriminate|]. apply parts_of_pure; auto.
  - destruct (applied op (Bools (Arr (ashape m) (fun idx => negb (aval m idx)))) b x y M) as (PR & F & _); auto; [unfold get_data; rewrite C; reflexivity|].
    destruct (rule_block_known m b _ ax p a P N) as (r & -> & R); [intros ->; exact F|]. apply (parts_of_pure op (fun d => mask d b None)); auto.
  - destruct (applied op (Nums d) b x y M) as (PR & F & _); auto; [unfold get_data; rewrite C; reflexivity|].
    destruct (rule_block_known d b _ ax p a P N) as (r & -> & R); [intros ->; exact F|]. apply (parts_of_pure op (fun d => diagonal d b)); auto.
Qed.
End Blocks.
