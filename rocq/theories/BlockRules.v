(** Proofs about the simplification rules of block operators (C17-C19). *)
From Verif Require Import Base Algebra SeqModel BlockModel BlockSpec BlockProofs.

Lemma piece_shape_at {A} ax p k shape a (x : array A) : position ax (length shape) = Some a -> ashape x = shape ->
  piece_shape (Some ax) p k shape = ashape (piece ax a p k x).
Proof. intros H <-. unfold piece_shape, piece. rewrite H, cut_shape. destruct ax; reflexivity. Qed.
Lemma piece_shape_eq {A} ax a p k (x y : array A) : ashape x = ashape y -> ashape (piece ax a p k x) = ashape (piece ax a p k y).
Proof. intros H. unfold piece. rewrite !cut_shape, H. reflexivity. Qed.
Lemma piece_aeq {A} ax a p k (x y : array A) : partitioned ax p (ashape x) a -> k < length p -> aeq x y ->
  aeq (piece ax a p k x) (piece ax a p k y).
Proof.
  intros HP Hk [S E]. split; [apply piece_shape_eq; auto|]. intros idx Hi. unfold piece in *. rewrite !cut_val. apply E.
  rewrite cut_shape in Hi. eapply glob_inside; eauto using partitioned_fits. apply (position_lt ax), HP.
Qed.
Lemma proper_nth {A} (ks : list (blk A)) k b : Forall proper ks -> nth_error ks k = Some b -> proper b.
Proof. intros H E. rewrite Forall_forall in H. apply H. eapply nth_error_In; eauto. Qed.
Lemma Forall2_self {X} (R : X -> X -> Prop) l : (forall x, In x l -> R x x) -> Forall2 R l l.
Proof. induction l; constructor; auto. - apply H; left; auto. - apply IHl. intros; apply H; right; auto. Qed.
Lemma announced_some axin axout po : announced axin axout (map Some po) po.
Proof. induction po; constructor; auto. Qed.

(** ** The code computes what [acts] says *)
Theorem acts_run {A} (q : blockop A) pi po (x y out : array A) :
  Forall proper (q_ops q) -> acts q pi po x y -> ashape out = ashape y ->
  exists r, block_direct q x out = Ok r /\ aeq r y.
Proof.
  intros HP HA HS. unfold acts in HA. unfold block_direct. destruct (q_in q) as [axin|], (q_out q) as [axout|]; [| | |destruct HA].
  - destruct HA as (ai & ao & pout & -> & -> & H1 & H2 & H3 & Pi & Po & HB).
    destruct (diag_spec (q_ops q) pi pout po axin axout ai ao x out) as (r & E & Sr & Vr); auto.
    + rewrite HS; auto.
    + intros k b Hb. rewrite <- (proj1 (HB k b Hb)). apply piece_shape_eq. auto.
    + exists r. split; auto. apply (pieces_eq axout ao po); [rewrite Sr, HS; auto|congruence|].
      intros k Hk. destruct (lt_nth_error (q_ops q) k ltac:(lia)) as (b & Hb).
      eapply aeq_trans; [apply Vr; eauto|]. apply aeq_sym. auto.
  - destruct HA as (ai & -> & _ & H1 & H2 & Pi & HB & HV).
    destruct (row_spec (q_oper q) (q_ops q) pi axin ai x out) as (r & E & Sr & Vr); auto.
    + intros k b Hb. rewrite (HB k b Hb). auto.
    + exists r. split; auto. split; [congruence|]. intros idx Hi. rewrite Sr in Hi.
      rewrite (Vr idx (aval y idx) Hi). symmetry. apply HV. congruence.
  - destruct HA as (ao & _ & -> & H1 & Po & HB).
    destruct (column_spec (q_ops q) po axout ao x out) as (r & E & Sr & Vr); auto.
    + rewrite HS; auto.
    + intros k b Hb. rewrite <- (proj1 (HB k b Hb)). apply piece_shape_eq. auto.
    + exists r. split; auto. apply (pieces_eq axout ao po); [rewrite Sr, HS; auto|congruence|].
      intros k Hk. destruct (lt_nth_error (q_ops q) k ltac:(lia)) as (b & Hb).
      eapply aeq_trans; [apply Vr; eauto|]. apply aeq_sym. auto.
Qed.

(** ** Merging partitions *)
Lemma merge_known_l p l c : merge_none nat none_eqb (Some (map Some p)) (Some l) = Ok c -> c = Some (map Some p).
Proof.
  unfold merge_none. destruct (negb _) eqn:E1; [discriminate|]. destruct (existsb _ _); [discriminate|]. intros [= <-].
  f_equal. apply negb_false_iff, Nat.eqb_eq in E1. rewrite map_length in E1. revert l E1.
  induction p as [|n p IH]; intros [|o l] E1; cbn in *; try discriminate; auto. f_equal. apply IH. lia.
Qed.
Lemma merge_known_eq p p' c : merge_none nat none_eqb (Some (map Some p)) (Some (map Some p')) = Ok c -> p = p'.
Proof.
  unfold merge_none. destruct (negb _) eqn:E1; [discriminate|]. destruct (existsb _ _) eqn:E2; [discriminate|]. intros _.
  apply negb_false_iff, Nat.eqb_eq in E1. rewrite !map_length in E1. revert p' E1 E2.
  induction p as [|n p IH]; intros [|n' p'] E1 E2; cbn in *; try discriminate; auto.
  apply orb_false_iff in E2 as [E2 E3]. apply negb_false_iff, Nat.eqb_eq in E2. f_equal; auto.
Qed.

(** ** The axes *)
Lemma position_value ax n a : position ax n = Some a ->
  Z.of_nat a = (if (0 <=? axis_value ax)%Z then axis_value ax else axis_value ax + Z.of_nat n)%Z.
Proof.
  unfold position. cbv zeta. set (i := if (0 <=? axis_value ax)%Z then _ else _).
  destruct ((0 <=? i)%Z && (i <? Z.of_nat n)%Z) eqn:E; [|discriminate].
  apply andb_true_iff in E as [E1 E2]. apply Z.leb_le in E1. intros [= <-]. lia.
Qed.
Lemma axes_match_same {A} (p1 p2 : blockop A) (m : array A) ax1 ax2 a1 a2 :
  axes_match p1 p2 = true -> q_in p1 = Some ax1 -> q_out p2 = Some ax2 ->
  (forall s, q_shapein p1 = Some s -> s = ashape m) -> (forall s, q_shapeout p2 = Some s -> s = ashape m) ->
  position ax1 (length (ashape m)) = Some a1 -> position ax2 (length (ashape m)) = Some a2 ->
  a1 = a2 /\ forall lo n (x : array A), cut ax1 a1 lo n x = cut ax2 a2 lo n x.
Proof.
  unfold axes_match. intros H E1 E2 H1 H2 P1 P2. rewrite E1, E2 in H. clear E1 E2. apply andb_true_iff in H as [H H'].
  assert (a1 = a2) as <-.
  { apply Z.eqb_eq in H. assert (L1 := position_lt _ _ _ P1). assert (L2 := position_lt _ _ _ P2).
    apply position_value in P1, P2.
    destruct (q_shapein p1) as [s1|]; [rewrite (H1 s1 eq_refl) in H|];
    (destruct (q_shapeout p2) as [s2|]; [rewrite (H2 s2 eq_refl) in H|]); clear - H P1 P2 L1 L2;
    destruct (Z.ltb_spec (axis_value ax1) 0), (Z.ltb_spec (axis_value ax2) 0),
      (Z.leb_spec 0 (axis_value ax1)), (Z.leb_spec 0 (axis_value ax2)); lia. }
  split; auto. intros. destruct ax1, ax2; try discriminate; reflexivity.
Qed.
Lemma same_piece {A} ax1 a1 ax2 a2 : (forall lo n (x : array A), cut ax1 a1 lo n x = cut ax2 a2 lo n x) ->
  forall p k (x : array A), piece ax1 a1 p k x = piece ax2 a2 p k x.
Proof. intros H p k x. apply H. Qed.

Lemma zip_error {X Y Z} (f : X -> Y -> Z) : forall l l' k c, nth_error (zip_with f l l') k = Some c ->
  exists b b', nth_error l k = Some b /\ nth_error l' k = Some b' /\ c = f b b'.
Proof.
  induction l; intros [|y l'] [|k] c E; cbn in *; try discriminate.
  - injection E as <-. eauto.
  - apply IHl; auto.
Qed.
Lemma map_error {X Y} (f : X -> Y) : forall l k c, nth_error (map f l) k = Some c -> exists b, nth_error l k = Some b /\ c = f b.
Proof.
  induction l; intros [|k] c E; cbn in *; try discriminate.
  - injection E as <-. eauto.
  - apply IHl; auto.
Qed.
Lemma Forall_proper_zip {A} (f : blk A -> blk A -> blk A) : (forall a b, proper a -> proper b -> proper (f a b)) ->
  forall l l', Forall proper l -> Forall proper l' -> Forall proper (zip_with f l l').
Proof.
  intros H. induction l; intros [|y l'] H1 H2; cbn; auto. inversion H1; inversion H2; subst. constructor; auto.
Qed.
Lemma proper_comp {A} (a b : blk A) : proper a -> proper b -> proper (comp a b).
Proof.
  intros [A1 A2] [B1 B2]. split.
  - intros x y H. cbn. auto.
  - intros x. cbn. rewrite A2, B2. reflexivity.
Qed.
Lemma proper_comm {A} oper (a b : blk A) : proper a -> proper b -> (forall x, ashape (k_fun a x) = ashape (k_fun b x)) -> proper (comm oper a b).
Proof.
  intros [A1 A2] [B1 B2] HS. split.
  - intros x y H. destruct (A1 x y H) as [E1 E2], (B1 x y H) as [E3 E4]. split; cbn [k_fun comm ashape aval]; auto.
    intros idx Hi. rewrite E2, E4; auto. rewrite <- HS; auto.
  - intros x. cbn. auto.
Qed.

Lemma total_shape {A} (oper : A -> A -> A) (ys zs : list (array A)) shape idx d :
  length ys = length zs -> (forall k d', k < length ys -> ashape (nth k ys d') = shape) ->
  (forall k d', k < length ys -> aeq (nth k ys d') (nth k zs d')) -> inside shape idx ->
  total oper ys idx d = total oper zs idx d.
Proof.
  intros HL HS HE Hi. destruct ys as [|y0 ys0] eqn:Ey; [destruct zs; [reflexivity|discriminate]|].
  apply (total_ext oper idx shape); [| |auto].
  - apply Forall2_nth with y0; auto.
  - apply Forall_nth' with y0; auto.
Qed.

(** ** Products of block operators *)
Theorem comp_acts {A} add inf pout pin (p1 p2 q : blockop A) pi pm po (x m r : array A) :
  Forall proper (q_ops p1) -> Forall proper (q_ops p2) ->
  (forall s, q_shapein p1 = Some s -> s = ashape m) -> (forall s, q_shapeout p2 = Some s -> s = ashape m) ->
  (q_out p1 = None -> q_oper p1 = add) ->
  acts p2 pi pm x m -> acts p1 pm po m r ->
  rule_comp add inf pout pin p1 p2 = Some (inr q) ->
  (forall axin axout, q_in p2 = Some axin -> q_out p1 = Some axout -> announced axin axout inf po) ->
  (q_in p2 = None -> q_pout q = Some (map Some po)) ->
  acts q pi po x r.
Proof.
  intros HP1 HP2 HS1 HS2 Hadd A2 A1 HR Hinf Hcol. unfold rule_comp, rule_noncommutative in HR.
  destruct (axes_match p1 p2) eqn:EA; [|discriminate].
  destruct (q_in p1) as [in1|] eqn:Ein1; [|unfold axes_match in EA; rewrite Ein1 in EA; discriminate].
  destruct (q_out p2) as [out2|] eqn:Eout2; [|unfold axes_match in EA; rewrite Ein1, Eout2 in EA; discriminate].
  destruct (merge_none nat none_eqb (q_pin p1) (q_pout p2)) as [mm|] eqn:Em; [|discriminate].
  unfold acts in A1, A2. rewrite Ein1 in A1. rewrite Eout2 in A2.
  destruct (q_out p1) as [out1|] eqn:Eout1, (q_in p2) as [in2|] eqn:Ein2.
  - (* diagonal, diagonal *)
    destruct A1 as (a1 & ao & pout1 & Q1 & Q2 & N1 & L1 & L2 & Pm1 & Po & V1).
    destruct A2 as (ai & a2 & pout2 & Q3 & Q4 & N2 & L3 & L4 & Pi & Pm2 & V2).
    destruct (axes_match_same p1 p2 m in1 out2 a1 a2 EA Ein1 Eout2 HS1 HS2 (proj1 Pm1) (proj1 Pm2)) as [<- HC].
    rewrite Q2, Q3 in HR. destruct (merge_none nat none_eqb (Some pout1) (Some pout)) as [po'|] eqn:E1; [|discriminate].
    destruct (merge_none nat none_eqb (Some (map Some pi)) (Some pin)) as [pi'|] eqn:E2; [|discriminate].
    injection HR as <-. apply merge_known_l in E2. subst pi'. unfold acts, construct. cbn [q_in q_out q_pin q_pout q_ops].
    exists ai, ao, inf. split; auto. split; auto. split; [apply Hinf; auto|].
    split. { rewrite zip_length; lia. } split. { rewrite zip_length; lia. } split; auto. split; auto.
    intros k c Hc. apply zip_error in Hc as (b1 & b2 & H1 & H2 & ->). cbn [k_fun comp].
    eapply aeq_trans; [apply V1; eauto|]. apply (proper_nth _ k _ HP1 H1).
    rewrite (same_piece _ _ _ _ HC). apply V2; auto.
  - (* diagonal, column *)
    destruct A1 as (a1 & ao & pout1 & Q1 & Q2 & N1 & L1 & L2 & Pm1 & Po & V1).
    destruct A2 as (a2 & Q3 & Q4 & L3 & Pm2 & V2).
    destruct (axes_match_same p1 p2 m in1 out2 a1 a2 EA Ein1 Eout2 HS1 HS2 (proj1 Pm1) (proj1 Pm2)) as [<- HC].
    rewrite Q2, Q3 in HR. destruct (merge_none nat none_eqb (Some pout1) (Some pout)) as [po'|] eqn:E1; [|discriminate].
    injection HR as <-. specialize (Hcol eq_refl). unfold construct in *. cbn [q_pout] in Hcol. subst po'.
    unfold acts. cbn [q_in q_out q_pin q_pout q_ops].
    exists ao. split; auto. split; auto. split. { rewrite zip_length; lia. } split; auto.
    intros k c Hc. apply zip_error in Hc as (b1 & b2 & H1 & H2 & ->). cbn [k_fun comp].
    eapply aeq_trans; [apply V1; eauto|]. apply (proper_nth _ k _ HP1 H1).
    rewrite (same_piece _ _ _ _ HC). apply V2; auto.
  - (* row, diagonal *)
    destruct A1 as (a1 & Q1 & Q2 & Ne & L1 & Pm1 & S1 & V1).
    destruct A2 as (ai & a2 & pout2 & Q3 & Q4 & N2 & L3 & L4 & Pi & Pm2 & V2).
    destruct (axes_match_same p1 p2 m in1 out2 a1 a2 EA Ein1 Eout2 HS1 HS2 (proj1 Pm1) (proj1 Pm2)) as [<- HC].
    rewrite Q2, Q3 in HR.
    destruct (merge_none nat none_eqb (Some (map Some pi)) (Some pin)) as [pi'|] eqn:E2; [|discriminate].
    injection HR as <-. apply merge_known_l in E2. subst pi'. unfold acts, construct. cbn [q_in q_out q_pin q_pout q_ops q_oper].
    assert (Q : forall k b1 b2, nth_error (q_ops p1) k = Some b1 -> nth_error (q_ops p2) k = Some b2 ->
      aeq (k_fun b1 (piece in1 a1 pm k m)) (k_fun b1 (k_fun b2 (piece in2 ai pi k x)))).
    { intros k b1 b2 H1 H2. apply (proper_nth _ k _ HP1 H1). rewrite (same_piece _ _ _ _ HC). apply V2; auto. }
    exists ai. split; auto. split; auto. split.
    { intros E. apply (f_equal (@length _)) in E. rewrite zip_length in E by lia. destruct (q_ops p1); [congruence|discriminate]. }
    split. { rewrite zip_length; lia. } split; auto. split.
    { intros k c Hc. apply zip_error in Hc as (b1 & b2 & H1 & H2 & ->). cbn [k_fun comp].
      rewrite <- (S1 k b1 H1). symmetry. apply (Q k b1 b2); auto. }
    intros idx d Hi. rewrite (V1 idx d Hi), (Hadd eq_refl).
    apply (total_shape add _ _ (ashape r)); [|rewrite outputs_length|rewrite outputs_length|auto].
    + rewrite !outputs_length, zip_length; lia.
    + intros k d' Hk. destruct (lt_nth_error _ _ Hk) as (b & Hb). rewrite (outputs_nth _ _ _ _ _ k b) by auto. eauto.
    + intros k d' Hk. destruct (lt_nth_error _ _ Hk) as (b1 & Hb1). destruct (lt_nth_error (q_ops p2) k ltac:(lia)) as (b2 & Hb2).
      rewrite (outputs_nth _ _ _ _ (q_ops p1) k b1) by auto.
      assert (E : nth_error (zip_with comp (q_ops p1) (q_ops p2)) k = Some (comp b1 b2)).
      { destruct (lt_nth_error (zip_with comp (q_ops p1) (q_ops p2)) k) as (c & Hc); [rewrite zip_length; lia|].
        rewrite Hc. apply zip_error in Hc as (b1' & b2' & H1 & H2 & ->). congruence. }
      rewrite (outputs_nth _ _ _ _ _ k (comp b1 b2)) by auto. apply Q; auto.
  - (* row, column: not a block operator *)
    destruct A1 as (a1 & Q1 & Q2 & _). destruct A2 as (a2 & Q3 & Q4 & _). rewrite Q2, Q3 in HR. discriminate.
Qed.

Theorem comp_sum {A} add inf pout pin (p1 p2 : blockop A) ops pi pm po (x m r out : array A) :
  Forall proper (q_ops p1) -> Forall proper (q_ops p2) ->
  (forall s, q_shapein p1 = Some s -> s = ashape m) -> (forall s, q_shapeout p2 = Some s -> s = ashape m) ->
  q_oper p1 = add ->
  acts p2 pi pm x m -> acts p1 pm po m r ->
  rule_comp add inf pout pin p1 p2 = Some (inl ops) -> ashape out = ashape r ->
  exists r', sum_direct add ops x out = Ok r' /\ aeq r' r.
Proof.
  intros HP1 HP2 HS1 HS2 Hadd A2 A1 HR HO. unfold rule_comp, rule_noncommutative in HR.
  destruct (axes_match p1 p2) eqn:EA; [|discriminate].
  destruct (q_in p1) as [in1|] eqn:Ein1; [|unfold axes_match in EA; rewrite Ein1 in EA; discriminate].
  destruct (q_out p2) as [out2|] eqn:Eout2; [|unfold axes_match in EA; rewrite Ein1, Eout2 in EA; discriminate].
  destruct (merge_none nat none_eqb (q_pin p1) (q_pout p2)) as [mm|] eqn:Em; [|discriminate].
  unfold acts in A1, A2. rewrite Ein1 in A1. rewrite Eout2 in A2.
  destruct (q_out p1) as [out1|] eqn:Eout1.
  { destruct A1 as (a1 & ao & pout1 & Q1 & Q2 & _). rewrite Q2 in HR.
    destruct (merge_none nat none_eqb (Some pout1) (Some pout)); [|discriminate].
    destruct (q_pin p2) as [i2|]; [destruct (merge_none nat none_eqb (Some i2) (Some pin)); discriminate|discriminate]. }
  destruct (q_in p2) as [in2|] eqn:Ein2.
  { destruct A1 as (a1 & Q1 & Q2 & _). destruct A2 as (a2 & ao & pout2 & Q3 & _). rewrite Q2, Q3 in HR.
    destruct (merge_none nat none_eqb (Some (map Some pi)) (Some pin)); discriminate. }
  destruct A1 as (a1 & Q1 & Q2 & Ne & L1 & Pm1 & S1 & V1). destruct A2 as (a2 & Q3 & Q4 & L3 & Pm2 & V2).
  destruct (axes_match_same p1 p2 m in1 out2 a1 a2 EA Ein1 Eout2 HS1 HS2 (proj1 Pm1) (proj1 Pm2)) as [<- HC].
  rewrite Q2, Q3 in HR. injection HR as <-.
  assert (Q : forall k b1 b2, nth_error (q_ops p1) k = Some b1 -> nth_error (q_ops p2) k = Some b2 ->
    aeq (k_fun b1 (piece in1 a1 pm k m)) (k_fun b1 (k_fun b2 x))).
  { intros k b1 b2 H1 H2. apply (proper_nth _ k _ HP1 H1). rewrite (same_piece _ _ _ _ HC). apply V2; auto. }
  assert (E0 : forall k b1 b2, nth_error (q_ops p1) k = Some b1 -> nth_error (q_ops p2) k = Some b2 ->
     nth_error (zip_with comp (q_ops p1) (q_ops p2)) k = Some (comp b1 b2)).
  { intros k b1 b2 H1 H2. destruct (lt_nth_error (zip_with comp (q_ops p1) (q_ops p2)) k) as (c & Hc).
    - rewrite zip_length by lia. eapply nth_error_lt; eauto.
    - rewrite Hc. apply zip_error in Hc as (b1' & b2' & H1' & H2' & ->). congruence. }
  destruct (sum_spec add (zip_with comp (q_ops p1) (q_ops p2)) x out) as (r' & E & S & V).
  - intros E. apply (f_equal (@length _)) in E. rewrite zip_length in E by lia. destruct (q_ops p1); [congruence|discriminate].
  - intros b Hb. destruct (In_nth_error _ _ Hb) as (k & Hk). apply zip_error in Hk as (b1 & b2 & H1 & H2 & ->).
    rewrite HO, <- (S1 k b1 H1). symmetry. apply (Q k b1 b2); auto.
  - exists r'. split; auto. split; [congruence|]. intros idx Hi. rewrite S, HO in Hi.
    assert (d : A) by (exact (aval r idx)). rewrite (V idx d), (V1 idx d Hi), Hadd. symmetry.
    apply (total_shape add _ _ (ashape r)); [|rewrite outputs_length|rewrite outputs_length|auto].
    + rewrite outputs_length, map_length, zip_length; lia.
    + intros k d' Hk. destruct (lt_nth_error _ _ Hk) as (b & Hb). rewrite (outputs_nth _ _ _ _ _ k b) by auto. eauto.
    + intros k d' Hk. destruct (lt_nth_error _ _ Hk) as (b1 & Hb1). destruct (lt_nth_error (q_ops p2) k ltac:(lia)) as (b2 & Hb2).
      rewrite (outputs_nth _ _ _ _ (q_ops p1) k b1) by auto.
      rewrite (nth_map_error _ _ _ (comp b1 b2)) by auto. apply Q; auto.
Qed.

(** ** Transposition *)
Section Transpose.
Context {K : cring}.

Theorem transpose_adjoint (q : blockop K) (f : blk K -> blk K) inf pi po (x r y out : array K) :
  Forall proper (q_ops q) -> Forall proper (map f (q_ops q)) -> q_ops q <> [] -> q_oper q = radd ->
  acts q pi po x r -> ashape y = ashape r -> ashape out = ashape x ->
  (forall axin axout, q_in q = Some axin -> q_out q = Some axout -> q_pout q = Some (map Some po) /\ announced axout axin inf pi) ->
  adjoint_blocks f q pi po (ashape x) (ashape r) ->
  exists r', block_direct (rule_T radd inf f q) y out = Ok r' /\ ashape r' = ashape x /\ inner r y = inner x r'.
Proof.
  intros HP HPf Hne Hop HA HSy HSo Hinf Hadj. unfold acts in HA. unfold adjoint_blocks in Hadj. unfold block_direct, rule_T, construct.
  destruct (q_in q) as [axin|], (q_out q) as [axout|]; [| | |destruct HA];
    cbn [q_in q_out q_pin q_pout q_ops q_oper].
  - destruct HA as (ai & ao & pout & Q1 & Q2 & N & L1 & L2 & Pi & Po & V).
    destruct (Hinf axin axout eq_refl eq_refl) as [Q3 HI]. rewrite Q3 in Q2. injection Q2 as <-. rewrite Q3.
    assert (HA' : forall k b, nth_error (q_ops q) k = Some b ->
      adjoint (ashape (piece axin ai pi k x)) (ashape (piece axout ao po k y)) b (f b)).
    { intros k b Hb. specialize (Hadj k b Hb). rewrite (piece_shape_at axin pi k (ashape x) ai x) in Hadj by (auto; apply Pi).
      rewrite (piece_shape_at axout po k (ashape r) ao y) in Hadj by (auto; apply Po). auto. }
    destruct (diag_spec (map f (q_ops q)) po inf pi axout axin ao ai y out) as (r' & E & S & V').
    + auto.
    + rewrite map_length; lia.
    + rewrite map_length; lia.
    + auto.
    + rewrite HSy; auto.
    + rewrite HSo; auto.
    + intros k b' Hb. apply map_error in Hb as (b & Hb & ->). destruct (HA' k b Hb) as (_ & H2 & _).
      rewrite H2 by auto. apply piece_shape_eq; auto.
    + exists r'. rewrite E. split; auto. split; [congruence|].
      apply (diag_adjoint (q_ops q) f pi po axin axout ai ao); auto; try congruence.
      intros k b Hb. apply V'. rewrite nth_error_map, Hb. reflexivity.
  - destruct HA as (ai & Q1 & Q2 & Ne & L1 & Pi & S1 & V). rewrite Q1.
    assert (HA' : forall k b, nth_error (q_ops q) k = Some b -> adjoint (ashape (piece axin ai pi k x)) (ashape y) b (f b)).
    { intros k b Hb. specialize (Hadj k b Hb). rewrite (piece_shape_at axin pi k (ashape x) ai x) in Hadj by (auto; apply Pi).
      cbn [piece_shape] in Hadj. rewrite HSy. auto. }
    destruct (column_spec (map f (q_ops q)) pi axin ai y out) as (r' & E & S & V').
    + rewrite map_length; lia.
    + rewrite HSo; auto.
    + intros k b' Hb. apply map_error in Hb as (b & Hb & ->). destruct (HA' k b Hb) as (_ & H2 & _).
      rewrite H2 by auto. apply piece_shape_eq; auto.
    + exists r'. rewrite E. split; auto. split; [congruence|].
      apply (row_adjoint (q_ops q) (map f (q_ops q)) pi axin ai); auto; try congruence.
      * rewrite map_length; auto.
      * intros k b b' Hb Hb'. rewrite nth_error_map, Hb in Hb'. injection Hb' as <-. auto.
      * intros idx d Hi. rewrite <- Hop. auto.
  - destruct HA as (ao & Q1 & Q2 & L1 & Po & V). rewrite Q2.
    assert (HA' : forall k b, nth_error (q_ops q) k = Some b -> adjoint (ashape x) (ashape (piece axout ao po k y)) b (f b)).
    { intros k b Hb. specialize (Hadj k b Hb). rewrite (piece_shape_at axout po k (ashape r) ao y) in Hadj by (auto; apply Po).
      cbn [piece_shape] in Hadj. auto. }
    destruct (row_spec radd (map f (q_ops q)) po axout ao y out) as (r' & E & S & V').
    + destruct (q_ops q); [congruence|discriminate].
    + auto.
    + rewrite map_length; lia.
    + rewrite HSy; auto.
    + intros k b' Hb. apply map_error in Hb as (b & Hb & ->). destruct (HA' k b Hb) as (_ & H2 & _).
      rewrite H2 by auto. auto.
    + exists r'. rewrite E. split; auto. split; [congruence|].
      rewrite (inner_comm r y), (inner_comm x r') by congruence. symmetry.
      apply (row_adjoint (map f (q_ops q)) (q_ops q) po axout ao); auto; try congruence.
      * destruct (q_ops q); [congruence|discriminate].
      * rewrite map_length; auto.
      * intros k b' b Hb' Hb. rewrite nth_error_map, Hb in Hb'. injection Hb' as <-. apply adjoint_sym. auto.
      * intros idx d Hi. rewrite S in Hi. auto.
Qed.
End Transpose.

(** ** Conjugation, inversion *)
Lemma piece_amap {A} (c : A -> A) ax a p k (x : array A) : piece ax a p k (amap c x) = amap c (piece ax a p k x).
Proof. unfold piece, cut, amap. destruct ax; reflexivity. Qed.
Lemma amap_aeq {A} (c : A -> A) (x y : array A) : aeq x y -> aeq (amap c x) (amap c y).
Proof. intros [S E]. split; cbn [amap ashape aval]; auto. intros idx Hi. rewrite E; auto. Qed.
Lemma fold_map {A} (c : A -> A) (oper add : A -> A -> A) idx : (forall u v, c (oper u v) = add (c u) (c v)) ->
  forall (ys : list (array A)) v, c (fold_left (fun acc z => oper acc (aval z idx)) ys v)
    = fold_left (fun acc z => add acc (aval z idx)) (map (amap c) ys) (c v).
Proof. intros H. induction ys as [|z ys IH]; intros v; cbn [fold_left map]; auto. rewrite IH, H. reflexivity. Qed.
Lemma total_map {A} (c : A -> A) (oper add : A -> A -> A) idx : (forall u v, c (oper u v) = add (c u) (c v)) ->
  forall (ys : list (array A)) d d', ys <> [] -> c (total oper ys idx d) = total add (map (amap c) ys) idx d'.
Proof. intros H [|y ys] d d' Hne; [congruence|]. cbn [total map]. rewrite (fold_map c oper add idx H). reflexivity. Qed.

Theorem conj_acts {A} (c : A -> A) (f : blk A -> blk A) add inf (q : blockop A) pi po (x r : array A) :
  (forall b z, In b (q_ops q) -> aeq (k_fun (f b) z) (amap c (k_fun b (amap c z)))) ->
  (q_out q = None -> forall u v, c (q_oper q u v) = add (c u) (c v)) ->
  acts q pi po (amap c x) r ->
  (forall axin axout, q_in q = Some axin -> q_out q = Some axout -> announced axin axout inf po) ->
  acts (rule_C add inf f q) pi po x (amap c r).
Proof.
  intros Hf Hc HA Hinf. unfold acts in *. unfold rule_C, construct.
  destruct (q_in q) as [axin|], (q_out q) as [axout|]; [| | |destruct HA]; cbn [q_in q_out q_pin q_pout q_ops q_oper].
  - destruct HA as (ai & ao & pout & Q1 & Q2 & N & L1 & L2 & Pi & Po & V).
    exists ai, ao, inf. rewrite map_length. do 7 (split; [auto|]).
    intros k b' Hb. apply map_error in Hb as (b & Hb & ->). rewrite piece_amap.
    eapply aeq_trans; [apply amap_aeq, V; eauto|]. rewrite piece_amap. apply aeq_sym, Hf. eapply nth_error_In; eauto.
  - destruct HA as (ai & Q1 & Q2 & Ne & L1 & Pi & S1 & V).
    exists ai. rewrite map_length. do 2 (split; [auto|]). split; [destruct (q_ops q); [congruence|discriminate]|].
    do 2 (split; [auto|]). split.
    + intros k b' Hb. apply map_error in Hb as (b & Hb & ->). rewrite (proj1 (Hf b _ (nth_error_In _ _ Hb))).
      cbn [amap ashape]. rewrite <- (S1 k b Hb), piece_amap. reflexivity.
    + intros idx d Hi. cbn [amap aval ashape] in *. rewrite (V idx d Hi).
      rewrite (total_map c (q_oper q) add idx (Hc eq_refl) _ d d).
      2:{ intros E. apply (f_equal (@length _)) in E. rewrite outputs_length in E. destruct (q_ops q); [congruence|discriminate]. }
      assert (HE : forall k d', k < length (q_ops q) ->
        aeq (nth k (map (amap c) (block_outputs axin ai pi (q_ops q) (amap c x))) d') (nth k (block_outputs axin ai pi (map f (q_ops q)) x) d')).
      { intros k d' Hk. destruct (lt_nth_error _ _ Hk) as (b & Hb).
        rewrite (nth_indep _ d' (amap c d')) by (rewrite map_length, outputs_length; lia).
        rewrite map_nth, (outputs_nth _ _ _ _ _ k b) by auto.
        rewrite (outputs_nth _ _ _ _ _ k (f b)) by (rewrite nth_error_map, Hb; auto).
        rewrite piece_amap. apply aeq_sym, Hf. eapply nth_error_In; eauto. }
      apply (total_shape add _ _ (ashape r)); rewrite ?map_length, ?outputs_length, ?map_length; auto.
      intros k d' Hk. destruct (lt_nth_error _ _ Hk) as (b & Hb).
      rewrite (nth_indep _ d' (amap c d')) by (rewrite map_length, outputs_length; lia).
      rewrite map_nth, (outputs_nth _ _ _ _ _ k b) by auto. cbn [amap ashape]. eauto.
  - destruct HA as (ao & Q1 & Q2 & L1 & Po & V).
    exists ao. rewrite map_length. do 4 (split; [auto|]).
    intros k b' Hb. apply map_error in Hb as (b & Hb & ->). rewrite piece_amap.
    eapply aeq_trans; [apply amap_aeq, V; eauto|]. apply aeq_sym, Hf. eapply nth_error_In; eauto.
Qed.

Theorem inverse_acts {A} (f : blk A -> blk A) add inf (q : blockop A) axin axout pi po (x r : array A) :
  q_in q = Some axin -> q_out q = Some axout -> Forall proper (map f (q_ops q)) ->
  acts q pi po x r -> q_pout q = Some (map Some po) -> announced axout axin inf pi ->
  (forall k b z, nth_error (q_ops q) k = Some b -> ashape z = piece_shape (Some axin) pi k (ashape x) -> aeq (k_fun (f b) (k_fun b z)) z) ->
  acts (rule_I add inf f q) po pi r x.
Proof.
  intros E1 E2 HP HA Q Hinf Hf. unfold acts in *. unfold rule_I, construct. rewrite E1, E2 in *. cbn [q_in q_out q_pin q_pout q_ops q_oper].
  destruct HA as (ai & ao & pout & Q1 & Q2 & N & L1 & L2 & Pi & Po & V).
  exists ao, ai, inf. rewrite map_length. do 7 (split; [auto|]).
  intros k b' Hb. assert (Hp := proper_nth _ _ _ HP Hb). apply map_error in Hb as (b & Hb & ->).
  apply aeq_sym. eapply aeq_trans; [apply Hp, V; eauto|]. apply (Hf k); auto.
  symmetry. apply piece_shape_at; auto. apply Pi.
Qed.

(** ** Separable operators *)
Lemma infer_id ax n a : position ax n = Some a -> n <= 32 -> forall m, (match ax with NewAxis _ => m = 1 | _ => True end) ->
  match ax with NewAxis _ => Some 1 | Axis _ => infer_one (fun s => s) ax ax m end = Some m.
Proof.
  intros Hp Hn m Hm. destruct ax as [z|z]; [|congruence]. unfold infer_one. cbv zeta.
  set (lo := if (0 <=? z)%Z then _ else _). assert (Hlo : lo <= 32 /\ forall d, lo <= d -> exists a', position (Axis z) d = Some a').
  { unfold position in *. cbv zeta in *. cbn [axis_value] in *.
    destruct (Z.leb_spec 0 z).
    - destruct ((0 <=? z)%Z && (z <? Z.of_nat n)%Z) eqn:E; [|discriminate]. apply andb_true_iff in E as [_ E]. apply Z.ltb_lt in E.
      split; [unfold lo; lia|]. intros d Hd. unfold lo in Hd.
      destruct (Z.leb_spec 0 z); [|lia]. destruct (Z.ltb_spec z (Z.of_nat d)); [|lia]. cbn [andb]. eauto.
    - destruct ((0 <=? z + Z.of_nat n)%Z && (z + Z.of_nat n <? Z.of_nat n)%Z) eqn:E; [|discriminate].
      apply andb_true_iff in E as [E _]. apply Z.leb_le in E.
      split; [unfold lo; lia|]. intros d Hd. unfold lo in Hd.
      destruct (Z.leb_spec 0 (z + Z.of_nat d)); [|lia]. destruct (Z.ltb_spec (z + Z.of_nat d) (Z.of_nat d)); [|lia]. cbn [andb]. eauto. }
  destruct Hlo as [Hlo HQ]. clearbody lo.
  assert (E : forall l, (forall d, In d l -> lo <= d) ->
    flat_map (fun ndim => match py_set (repeat 0 ndim) z m with
                     | Ok s => match py_nth s z with Ok m => [m] | Raise _ => [] end
                     | Raise _ => [] end) l = repeat m (length l)).
  { induction l as [|d l IH]; intros Hl; auto. cbn [flat_map length repeat]. rewrite IH by (intros; apply Hl; right; auto).
    destruct (HQ d) as (a' & Ha'); [apply Hl; left; auto|].
    assert (Hlt := position_lt _ _ _ Ha').
    rewrite (py_set_pos _ _ a') by (rewrite repeat_length; auto).
    rewrite (py_nth_pos _ _ a') by (rewrite set_nth_length; rewrite repeat_length; auto).
    rewrite nth_set_nth by (rewrite repeat_length; auto). reflexivity. }
  rewrite E by (intros d Hd; apply in_seq in Hd; lia). rewrite seq_length.
  destruct (33 - lo) as [|w] eqn:Ew; [lia|]. cbn [repeat].
  replace (forallb (Nat.eqb m) (repeat m w)) with true; auto. symmetry. apply forallb_forall. intros v Hv.
  apply repeat_spec in Hv. subst. apply Nat.eqb_refl.
Qed.
Lemma infer_one_ext f g axf axt n : (forall s, f s = g s) -> infer_one f axf axt n = infer_one g axf axt n.
Proof.
  intros H. unfold infer_one. destruct axt; auto. cbv zeta.
  match goal with |- match flat_map ?F _ with _ => _ end = match flat_map ?G _ with _ => _ end =>
    assert (E : forall l, flat_map F l = flat_map G l) by (induction l; cbn; auto; rewrite IHl; f_equal; destruct axf; [destruct (py_set _ _ _)|]; auto; rewrite H; auto)
  end. rewrite E. reflexivity.
Qed.
Lemma infer_same_id f ax p shape a : (forall s, f s = s) -> partitioned ax p shape a -> length shape <= 32 ->
  infer_same f ax (map Some p) = map Some p.
Proof.
  intros Hf HP Hn. unfold infer_same. rewrite map_map. apply map_ext_in. intros m Hm.
  rewrite (infer_one_ext f (fun s => s)) by auto. eapply infer_id; eauto. { apply HP. }
  assert (H := ones_of _ _ _ _ HP). destruct ax; auto. rewrite Forall_forall in H. symmetry. auto.
Qed.

Theorem lcomp_acts {A} add inf (op : blk A) (q q' : blockop A) pi po (x y : array A) :
  proper op -> (forall s, k_reshapein op s = s) ->
  acts q pi po x y -> length (ashape y) <= 32 ->
  (forall axout ao, q_out q = Some axout -> position axout (length (ashape y)) = Some ao -> acts_piecewise axout ao po op y) ->
  rule_lcomp add inf op q = Some q' ->
  (forall axin axout, q_in q = Some axin -> q_out q = Some axout -> announced axin axout inf po) ->
  acts q' pi po x (k_fun op y).
Proof.
  intros Hop Hsq HA Hn Hpw HR Hinf. unfold rule_lcomp in HR. unfold acts in HA.
  destruct (q_in q) as [axin|] eqn:Ein, (q_out q) as [axout|] eqn:Eout; [| | |destruct HA].
  - destruct HA as (ai & ao & pout & Q1 & Q2 & N & L1 & L2 & Pi & Po & V). rewrite Q2 in HR. injection HR as <-.
    destruct (Hpw axout ao eq_refl (proj1 Po)) as [W1 W2].
    unfold acts, construct. cbn [q_in q_out q_pin q_pout q_ops q_oper].
    exists ai, ao, inf. rewrite map_length, W1. do 7 (split; [auto|]).
    intros k b' Hb. assert (Hk := nth_error_lt _ _ _ Hb). rewrite map_length in Hk. apply map_error in Hb as (b & Hb & ->).
    eapply aeq_trans; [apply W2; lia|]. cbn [comp k_fun]. apply Hop. auto.
  - destruct (q_pout q); discriminate.
  - destruct HA as (ao & Q1 & Q2 & L1 & Po & V). rewrite Q2 in HR. injection HR as <-.
    destruct (Hpw axout ao eq_refl (proj1 Po)) as [W1 W2].
    unfold acts, construct. cbn [q_in q_out q_pin q_pout q_ops q_oper].
    exists ao. rewrite map_length, W1. split; auto. split. { f_equal. eapply infer_same_id; eauto. } do 2 (split; [auto|]).
    intros k b' Hb. assert (Hk := nth_error_lt _ _ _ Hb). rewrite map_length in Hk. apply map_error in Hb as (b & Hb & ->).
    eapply aeq_trans; [apply W2; lia|]. cbn [comp k_fun]. apply Hop. auto.
Qed.

Theorem rcomp_acts {A} add inf reshapeout (op : blk A) (q q' : blockop A) pi po (x y : array A) :
  Forall proper (q_ops q) -> (forall s, reshapeout s = s) -> (q_out q = None -> q_oper q = add) ->
  acts q pi po (k_fun op x) y -> length (ashape x) <= 32 ->
  (forall axin ai, q_in q = Some axin -> position axin (length (ashape x)) = Some ai -> acts_piecewise axin ai pi op x) ->
  ashape (k_fun op x) = ashape x ->
  rule_rcomp add inf reshapeout q op = Some q' ->
  (forall axin axout, q_in q = Some axin -> q_out q = Some axout -> announced axin axout inf po) ->
  acts q' pi po x y.
Proof.
  intros HP Hsq Hadd HA Hn Hpw HS HR Hinf. unfold rule_rcomp in HR. unfold acts in HA.
  destruct (q_in q) as [axin|] eqn:Ein, (q_out q) as [axout|] eqn:Eout; [| | |destruct HA].
  - destruct HA as (ai & ao & pout & Q1 & Q2 & N & L1 & L2 & Pi & Po & V). rewrite Q1 in HR. injection HR as <-. rewrite HS in Pi.
    destruct (Hpw axin ai eq_refl (proj1 Pi)) as [W1 W2].
    unfold acts, construct. cbn [q_in q_out q_pin q_pout q_ops q_oper].
    exists ai, ao, inf. rewrite map_length. split. { f_equal. eapply infer_same_id; eauto. } do 6 (split; [auto|]).
    intros k b' Hb. assert (Hk := nth_error_lt _ _ _ Hb). rewrite map_length in Hk. apply map_error in Hb as (b & Hb & ->).
    eapply aeq_trans; [apply V; eauto|]. cbn [comp k_fun]. apply (proper_nth _ _ _ HP Hb). apply W2. lia.
  - destruct HA as (ai & Q1 & Q2 & Ne & L1 & Pi & S1 & V). rewrite Q1 in HR. injection HR as <-. rewrite HS in Pi.
    destruct (Hpw axin ai eq_refl (proj1 Pi)) as [W1 W2].
    unfold acts, construct. cbn [q_in q_out q_pin q_pout q_ops q_oper].
    exists ai. rewrite map_length. split. { f_equal. eapply infer_same_id; eauto. } split; auto.
    split; [destruct (q_ops q); [congruence|discriminate]|]. do 2 (split; [auto|]).
    assert (Q : forall k b, nth_error (q_ops q) k = Some b ->
      aeq (k_fun b (piece axin ai pi k (k_fun op x))) (k_fun b (k_fun op (piece axin ai pi k x)))).
    { intros k b Hb. apply (proper_nth _ _ _ HP Hb). apply W2. rewrite <- L1. eapply nth_error_lt; eauto. }
    split.
    + intros k b' Hb. apply map_error in Hb as (b & Hb & ->). cbn [comp k_fun]. rewrite <- (S1 k b Hb). symmetry. apply Q. auto.
    + intros idx d Hi. rewrite (V idx d Hi), (Hadd eq_refl).
      apply (total_shape add _ _ (ashape y)); rewrite ?outputs_length, ?map_length; auto.
      * intros k d' Hk. destruct (lt_nth_error _ _ Hk) as (b & Hb). rewrite (outputs_nth _ _ _ _ _ k b) by auto. eauto.
      * intros k d' Hk. destruct (lt_nth_error _ _ Hk) as (b & Hb). rewrite (outputs_nth _ _ _ _ (q_ops q) k b) by auto.
        rewrite (outputs_nth _ _ _ _ _ k (comp b op)) by (rewrite nth_error_map, Hb; auto). apply Q. auto.
  - destruct HA as (ao & Q1 & _). rewrite Q1 in HR. discriminate.
Qed.

(** ** Sums and element-wise products *)
Lemma piece_both {A} oper ax a p k (x y : array A) : piece ax a p k (both oper x y) = both oper (piece ax a p k x) (piece ax a p k y).
Proof. unfold piece, cut, both. destruct ax; reflexivity. Qed.
Lemma both_aeq {A} oper (x x' y y' : array A) : aeq x x' -> aeq y y' -> ashape x = ashape y -> aeq (both oper x y) (both oper x' y').
Proof.
  intros [S1 E1] [S2 E2] S. split; cbn [both ashape aval]; auto. intros idx Hi. rewrite E1, E2; auto. congruence.
Qed.
Lemma opt_axis_eq a b : opt_axis_eqb a b = true -> a = b.
Proof. destruct a as [[z|z]|], b as [[w|w]|]; cbn; intros H; try discriminate; auto; apply Z.eqb_eq in H; subst; auto. Qed.

Theorem same_acts {A} add oper inf (p1 p2 q : blockop A) pi po (x y1 y2 : array A) :
  (q_out p1 = None -> q_oper p1 = oper /\ q_oper p2 = oper /\ add = oper /\ (forall u v, oper u v = oper v u)
     /\ (forall u v w, oper u (oper v w) = oper (oper u v) w)) ->
  ashape y1 = ashape y2 -> length (q_ops p1) = length (q_ops p2) ->
  acts p1 pi po x y1 -> acts p2 pi po x y2 ->
  rule_same add oper inf p1 p2 = Some q ->
  (forall axin axout, q_in p1 = Some axin -> q_out p1 = Some axout -> announced axin axout inf po) ->
  acts q pi po x (both oper y1 y2).
Proof.
  intros Hop HS HL A1 A2 HR Hinf. unfold rule_same in HR.
  destruct (opt_axis_eqb (q_in p1) (q_in p2)) eqn:E1; [|discriminate].
  destruct (opt_axis_eqb (q_out p1) (q_out p2)) eqn:E2; [|discriminate]. cbn [andb] in HR.
  apply opt_axis_eq in E1, E2.
  destruct (merge_none nat none_eqb (q_pout p1) (q_pout p2)) as [po'|] eqn:Ep; [|discriminate].
  destruct (merge_none nat none_eqb (q_pin p1) (q_pin p2)) as [pi'|] eqn:Ei; [|discriminate].
  injection HR as <-. unfold acts in A1, A2 |- *. rewrite <- E1, <- E2 in A2. unfold construct.
  destruct (q_in p1) as [axin|] eqn:Ein, (q_out p1) as [axout|] eqn:Eout; [| | |destruct A1]; cbn [q_in q_out q_pin q_pout q_ops q_oper].
  - destruct A1 as (ai & ao & pout & Q1 & Q2 & N & L1 & L2 & Pi & Po & V).
    destruct A2 as (ai' & ao' & pout' & Q1' & Q2' & N' & L1' & L2' & Pi' & Po' & V').
    assert (ai' = ai) as -> by (apply (proj1) in Pi, Pi'; congruence).
    assert (ao' = ao) as -> by (apply (proj1) in Po, Po'; rewrite HS in Po; congruence).
    rewrite Q1, Q1' in Ei. apply merge_known_l in Ei. subst pi'.
    exists ai, ao, inf. rewrite zip_length by auto. do 7 (split; [auto|]).
    intros k c Hc. apply zip_error in Hc as (b1 & b2 & H1 & H2 & ->). rewrite piece_both.
    apply both_aeq; auto. apply piece_shape_eq; auto.
  - destruct A1 as (ai & Q1 & Q2 & Ne & L1 & Pi & S1 & V). destruct A2 as (ai' & Q1' & Q2' & Ne' & L1' & Pi' & S1' & V').
    assert (ai' = ai) as -> by (apply (proj1) in Pi, Pi'; congruence).
    rewrite Q1, Q1' in Ei. apply merge_known_l in Ei. subst pi'. rewrite Q2, Q2' in Ep. injection Ep as <-.
    destruct (Hop eq_refl) as (O1 & O2 & -> & OC & OA).
    exists ai. rewrite zip_length by auto. do 2 (split; [auto|]). split.
    { intros E. apply (f_equal (@length _)) in E. rewrite zip_length in E by lia. destruct (q_ops p1); [congruence|discriminate]. }
    do 2 (split; [auto|]). split.
    + intros k c Hc. apply zip_error in Hc as (b1 & b2 & H1 & H2 & ->). cbn [comm k_fun ashape both]. eauto.
    + intros idx d Hi. cbn [both aval ashape] in *. rewrite (V idx d Hi), (V' idx d) by congruence. rewrite O1, O2.
      clear - HL Ne OC OA.
      unfold block_outputs. rewrite zip_length by auto. revert HL Ne. generalize (q_ops p1) as l, (q_ops p2) as l'. intros l l' HL Ne.
      destruct l as [|b l]; [congruence|]. destruct l' as [|b' l']; [discriminate|].
      cbn [length seq combine map zip_with total fst snd k_fun comm aval].
      assert (G : forall n u u', length l = length l' ->
        oper (fold_left (fun acc z => oper acc (aval z idx)) (map (fun kb => k_fun (snd kb) (piece axin ai pi (fst kb) x)) (combine (seq n (length l)) l)) u)
             (fold_left (fun acc z => oper acc (aval z idx)) (map (fun kb => k_fun (snd kb) (piece axin ai pi (fst kb) x)) (combine (seq n (length l')) l')) u')
        = fold_left (fun acc z => oper acc (aval z idx)) (map (fun kb => k_fun (snd kb) (piece axin ai pi (fst kb) x)) (combine (seq n (length l)) (zip_with (comm oper) l l'))) (oper u u')).
      { clear HL Ne. revert l'. induction l as [|c l IH]; intros [|c' l'] n u u' HL; cbn in HL; try lia; auto.
        cbn [length seq combine map zip_with fold_left fst snd k_fun comm aval]. rewrite IH by lia. f_equal.
        rewrite <- !OA. f_equal. rewrite !OA. f_equal. apply OC. }
      apply G. cbn in HL; lia.
  - destruct A1 as (ao & Q1 & Q2 & L1 & Po & V). destruct A2 as (ao' & Q1' & Q2' & L1' & Po' & V').
    assert (ao' = ao) as -> by (apply (proj1) in Po, Po'; rewrite HS in Po; congruence).
    rewrite Q2, Q2' in Ep. apply merge_known_l in Ep. subst po'. rewrite Q1, Q1' in Ei. injection Ei as <-.
    exists ao. rewrite zip_length by auto. do 4 (split; [auto|]).
    intros k c Hc. apply zip_error in Hc as (b1 & b2 & H1 & H2 & ->). rewrite piece_both.
    apply both_aeq; auto. apply piece_shape_eq; auto.
Qed.

Theorem commutative_acts {A} add oper inf (op : blk A) (q : blockop A) axin pi (x y : array A) ai :
  q_in q = Some axin -> q_out q = Some axin -> position axin (length (ashape x)) = Some ai -> ashape y = ashape x ->
  acts q pi pi x y -> acts_piecewise axin ai pi op x -> announced axin axin inf pi ->
  acts (rule_commutative add oper inf q op) pi pi x (both oper y (k_fun op x)).
Proof.
  intros E1 E2 Hp HS HA [W1 W2] Hinf. unfold acts in *. unfold rule_commutative, construct. rewrite E1, E2 in *.
  cbn [q_in q_out q_pin q_pout q_ops q_oper].
  destruct HA as (ai' & ao & pout & Q1 & Q2 & N & L1 & L2 & Pi & Po & V).
  assert (ai' = ai) as -> by (apply (proj1) in Pi; congruence).
  assert (ao = ai) as -> by (apply (proj1) in Po; rewrite HS in Po; congruence).
  exists ai, ai, inf. rewrite map_length. do 7 (split; [auto|]).
  intros k c Hc. assert (Hk := nth_error_lt _ _ _ Hc). rewrite map_length in Hk. apply map_error in Hc as (b & Hb & ->).
  rewrite piece_both. apply both_aeq; [auto|apply W2; lia|]. apply piece_shape_eq. congruence.
Qed.

(** ** Inferred partitions *)
Lemma infer_sound reshape axfrom axto n m :
  (match axto with NewAxis _ => m = 1 | Axis ato => forall shape s r, 
     (match axfrom with Axis a => py_set shape a n | NewAxis _ => Ok shape end) = Ok s -> py_nth (reshape s) ato = Ok r -> r = m end) ->
  infer_one reshape axfrom axto n = None \/ infer_one reshape axfrom axto n = Some m.
Proof.
  intros H. unfold infer_one. destruct axto as [ato|ato]; [|right; congruence]. cbv zeta.
  match goal with |- context [flat_map ?F ?l] => assert (HF : forall v, In v (flat_map F l) -> v = m) end.
  { intros v Hv. apply in_flat_map in Hv as (d & _ & Hv).
    destruct (match axfrom with Axis a => py_set (repeat 0 d) a n | NewAxis _ => Ok (repeat 0 d) end) as [s|] eqn:E; [|destruct Hv].
    destruct (py_nth (reshape s) ato) as [w|] eqn:E2; [|destruct Hv]. destruct Hv as [<-|[]]. eauto. }
  destruct (flat_map _ _) as [|v l]; auto. destruct (forallb _ _); auto. right. f_equal. apply HF. left; auto.
Qed.
Lemma py_nth_inv l z r : py_nth l z = Ok r -> exists b, position (Axis z) (length l) = Some b /\ nth b l 0 = r.
Proof.
  unfold py_nth, position. cbv zeta. cbn [axis_value]. set (i := if (0 <=? z)%Z then _ else _).
  destruct (Z.ltb_spec i 0); [discriminate|]. destruct (nth_error l (Z.to_nat i)) as [v|] eqn:E; [|discriminate]. intros [= <-].
  assert (Hlt := nth_error_lt _ _ _ E). destruct (Z.leb_spec 0 i); [|lia]. destruct (Z.ltb_spec i (Z.of_nat (length l))); [|lia].
  cbn [andb]. eexists; split; [reflexivity|]. apply nth_error_nth. auto.
Qed.
Lemma py_set_inv l z n s : py_set l z n = Ok s -> exists a, position (Axis z) (length s) = Some a /\ nth a s 0 = n.
Proof.
  unfold py_set, position. cbv zeta. cbn [axis_value]. set (i := if (0 <=? z)%Z then _ else _).
  destruct (Z.ltb_spec i 0); [discriminate|]. destruct (Z.leb_spec (Z.of_nat (length l)) i); [discriminate|]. cbn [orb]. intros [= <-].
  rewrite set_nth_length by lia. fold i. destruct (Z.leb_spec 0 i); [|lia]. destruct (Z.ltb_spec i (Z.of_nat (length l))); [|lia].
  cbn [andb]. eexists; split; [reflexivity|]. apply nth_set_nth. lia.
Qed.
Theorem infer_right reshape af ato n m :
  (forall shape a b, position (Axis af) (length shape) = Some a -> nth a shape 0 = n ->
     position (Axis ato) (length (reshape shape)) = Some b -> nth b (reshape shape) 0 = m) ->
  infer_one reshape (Axis af) (Axis ato) n = None \/ infer_one reshape (Axis af) (Axis ato) n = Some m.
Proof.
  intros H. apply infer_sound. intros shape s r E1 E2. apply py_set_inv in E1 as (a & Ha & Hn).
  apply py_nth_inv in E2 as (b & Hb & <-). eauto.
Qed.

Lemma cut_whole {A} z a (x : array A) : a < length (ashape x) -> aeq (cut (Axis z) a 0 (nth a (ashape x) 0) x) x.
Proof.
  intros H. destruct x as [shape f]; cbn [ashape] in *. destruct (at_split shape a H) as (u & m & v & -> & <-).
  split; cbn [cut ashape aval]; rewrite nth_app_at, ?set_nth_app; auto.
  intros idx Hi. apply inside_split in Hi as (i & j & l & -> & H1 & H2 & H3 & H4).
  rewrite <- H4, nth_app_at, set_nth_app. reflexivity.
Qed.
Theorem single_acts {A} (q : blockop A) b pi po (x y : array A) :
  proper b -> make q = inl b -> (forall z, q_in q <> Some (NewAxis z)) -> (forall z, q_out q <> Some (NewAxis z)) ->
  acts q pi po x y -> aeq (k_fun b x) y.
Proof.
  intros HP HM N1 N2 HA. unfold make in HM. destruct (q_ops q) as [|b0 [|b1 l]] eqn:Eo; try discriminate. injection HM as ->.
  unfold acts in HA. rewrite Eo in HA. cbn [length] in HA.
  assert (W : forall ax p shape a (w : array A), partitioned ax p shape a -> shape = ashape w -> (forall z, ax <> NewAxis z) -> 1 = length p ->
    aeq (piece ax a p 0 w) w).
  { intros ax p shape a w HPp -> Hz Hl. assert (Hs := partitioned_sum _ _ _ _ HPp). destruct ax as [z|z]; [|destruct (Hz z); auto].
    destruct p as [|n [|n' p]]; try discriminate. unfold piece. rewrite offset_0. cbn [nth].
    replace n with (nth a (ashape w) 0). 2:{ rewrite <- Hs. unfold list_sum. cbn. lia. }
    apply cut_whole. eapply position_lt, HPp. }
  destruct (q_in q) as [axin|], (q_out q) as [axout|]; [| | |destruct HA].
  - destruct HA as (ai & ao & pout & Q1 & Q2 & N & L1 & L2 & Pi & Po & V).
    specialize (V 0 b eq_refl). eapply aeq_trans; [|eapply W; [exact Po|reflexivity|intros z E; apply (N2 z); congruence|auto]].
    apply aeq_sym. eapply aeq_trans; [exact V|]. apply HP. eapply W; [exact Pi|reflexivity|intros z E; apply (N1 z); congruence|auto].
  - destruct HA as (ai & Q1 & Q2 & Ne & L1 & Pi & S1 & V).
    assert (E : aeq (k_fun b (piece axin ai pi 0 x)) (k_fun b x)). { apply HP. eapply W; [exact Pi|reflexivity|intros z E; apply (N1 z); congruence|auto]. }
    eapply aeq_trans; [apply aeq_sym; exact E|]. split; [apply (S1 0 b eq_refl)|]. intros idx Hi.
    rewrite (S1 0 b eq_refl) in Hi. rewrite (V idx (aval y idx) Hi). reflexivity.
  - destruct HA as (ao & Q1 & Q2 & L1 & Po & V). specialize (V 0 b eq_refl).
    apply aeq_sym. eapply aeq_trans; [|exact V]. apply aeq_sym. eapply W; [exact Po|reflexivity|intros z E; apply (N2 z); congruence|auto].
Qed.
