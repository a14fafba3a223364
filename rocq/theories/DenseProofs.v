From Verif Require Import Base Algebra SeqModel SeqSpec SeqProofs BlockModel BlockSpec BlockProofs DiagModel DiagSpec DiagProofs RedModel RedProofs DenseModel DenseSpec.

(** ** Lists *)
Lemma last_n_app {A} (u v : list A) n : n = length v -> last_n n (u ++ v) = v.
Proof. intros ->. unfold last_n. rewrite app_length, Nat.add_sub. rewrite skipn_app, skipn_all, Nat.sub_diag. reflexivity. Qed.
Lemma but_last_app {A} (u v : list A) n : n = length v -> but_last n (u ++ v) = u.
Proof. intros ->. unfold but_last. rewrite app_length, Nat.add_sub. rewrite firstn_app, firstn_all, Nat.sub_diag. cbn. apply app_nil_r. Qed.
Lemma firstn_app_l {A} (u v : list A) n : n = length u -> firstn n (u ++ v) = u.
Proof. intros ->. rewrite firstn_app, firstn_all, Nat.sub_diag. cbn. apply app_nil_r. Qed.
Lemma skipn_app_l {A} (u v : list A) n : n = length u -> skipn n (u ++ v) = v.
Proof. intros ->. rewrite skipn_app, skipn_all, Nat.sub_diag. reflexivity. Qed.
Lemma split_first {A} (l : list A) n : n <= length l -> exists u v, l = u ++ v /\ length u = n.
Proof. intros H. exists (firstn n l), (skipn n l). split; [symmetry; apply firstn_skipn|rewrite firstn_length; lia]. Qed.
Lemma split_last {A} (l : list A) n : n <= length l -> exists u v, l = u ++ v /\ length v = n.
Proof. intros H. destruct (split_first l (length l - n)) as (u & v & -> & L); [lia|]. exists u, v. split; [reflexivity|]. rewrite app_length in *. lia. Qed.

Lemma app_eq_app_length {A} (u v u' v' : list A) : u ++ v = u' ++ v' -> length u = length u' -> u = u' /\ v = v'.
Proof. intros E L. split; [apply (f_equal (firstn (length u))) in E; rewrite firstn_app_l, firstn_app_l in E by auto; exact E|apply (f_equal (skipn (length u))) in E; rewrite skipn_app_l, skipn_app_l in E by auto; exact E]. Qed.

(** ** Broadcast *)
Definition join (n m d : nat) : Prop := (n = m /\ d = n) \/ (n = 1 /\ d = m) \/ (m = 1 /\ d = n).
Lemma bc_dims u : forall v w, bc u v = Ok w -> length w = Nat.max (length u) (length v) /\ forall k, join (nth k u 1) (nth k v 1) (nth k w 1).
Proof.
  induction u as [|n u IH]; intros v w H.
  - cbn in H. injection H as <-. split; [reflexivity|]. intros k. right. left. split; [destruct k; reflexivity|reflexivity].
  - destruct v as [|m v]; cbn [bc] in H.
    + injection H as <-. split; [cbn; lia|]. intros k. right. right. split; [destruct k; reflexivity|reflexivity].
    + destruct (if Nat.eqb n m then Ok n else if Nat.eqb n 1 then Ok m else if Nat.eqb m 1 then Ok n else Raise ValueError) as [d|] eqn:E; [|discriminate]. cbn [rbind] in H.
      destruct (bc u v) as [r|] eqn:F; [|discriminate]. cbn [rbind] in H. injection H as <-. destruct (IH v r F) as [L J]. split; [cbn; lia|]. intros [|k]; [|apply J]. cbn [nth].
      destruct (Nat.eqb_spec n m); [injection E as <-; left; auto|]. destruct (Nat.eqb_spec n 1); [injection E as <-; right; left; auto|]. destruct (Nat.eqb_spec m 1); [injection E as <-; right; right; auto|discriminate].
Qed.
Lemma bc_total u : forall v, (forall k, nth k u 1 = 1 \/ nth k v 1 = 1 \/ nth k u 1 = nth k v 1) -> exists w, bc u v = Ok w.
Proof.
  induction u as [|n u IH]; intros [|m v] H; cbn [bc]; try (eexists; reflexivity). destruct (IH v) as [w ->]; [intros k; exact (H (S k))|].
  pose proof (H 0) as H0. cbn [nth] in H0. destruct (Nat.eqb_spec n m); [eexists; reflexivity|]. destruct (Nat.eqb_spec n 1); [eexists; reflexivity|]. destruct (Nat.eqb_spec m 1); [eexists; reflexivity|]. lia.
Qed.
Lemma bc_common a b r : bc (rev a) (rev b) = Ok (rev r) <-> common a b r.
Proof.
  split.
  - intros H. destruct (bc_dims _ _ _ H) as [L J]. rewrite !rev_length in L. split; [|split; [|split]].
    + intros s t k Hs Ht. pose proof (J k) as Jk. unfold dim. unfold join in Jk. cbn in Hs, Ht. destruct Hs as [<-|[<-|[]]], Ht as [<-|[<-|[]]]; lia.
    + intros s [<-|[<-|[]]]; lia.
    + destruct (Nat.max_spec (length a) (length b)) as [[_ E]|[_ E]]; [exists b|exists a]; cbn; split; auto; lia.
    + intros k. specialize (J k). unfold dim in *. unfold join in J. destruct (Nat.eq_dec (nth k (rev a) 1) 1) as [E1|N1].
      * destruct (Nat.eq_dec (nth k (rev b) 1) 1) as [E2|N2]; [left; split; [intros s [<-|[<-|[]]]; auto|lia]|]. right. exists b. split; [right; left; reflexivity|]. lia.
      * right. exists a. split; [left; reflexivity|]. lia.
  - intros [C B]. destruct (bc_total (rev a) (rev b)) as [w E].
    { intros k. apply (C a b k); [left|right; left]; reflexivity. }
    rewrite E. f_equal. destruct (bc_dims _ _ _ E) as [L J]. rewrite !rev_length in L. destruct B as (B1 & (s & Hs & Ls) & B3).
    assert (length w = length r) as Lw. { pose proof (B1 a (or_introl eq_refl)). pose proof (B1 b (or_intror (or_introl eq_refl))). destruct Hs as [<-|[<-|[]]]; lia. }
    apply nth_ext with (d := 1) (d' := 1); [rewrite rev_length; exact Lw|]. intros k _. specialize (J k). specialize (B3 k). unfold dim in B3. unfold join in J.
    destruct B3 as [[F E3]|(t & [<-|[<-|[]]] & N & E3)]; [pose proof (F a (or_introl eq_refl)); pose proof (F b (or_intror (or_introl eq_refl))); lia| |];
    pose proof (C a b k (or_introl eq_refl) (or_intror (or_introl eq_refl))) as Ck; unfold dim in Ck; lia.
Qed.
Lemma bs_common a b r : broadcast_shapes [a; b] = Ok r <-> common a b r.
Proof. apply (broadcast_spec [a; b] r). discriminate. Qed.
Lemma common_sym a b r : common a b r -> common b a r.
Proof.
  intros [C (B1 & (s & Hs & Ls) & B3)]. split; [|split; [|split]].
  - intros u v k Hu Hv. apply C; cbn in *; tauto.
  - intros u Hu. apply B1. cbn in *. tauto.
  - exists s. cbn in *. tauto.
  - intros k. destruct (B3 k) as [[F E]|(t & Ht & E)]; [left|right].
    + split; [|exact E]. intros u Hu. apply F. cbn in *. tauto.
    + exists t. cbn in *. tauto.
Qed.
Lemma common_length a b r : common a b r -> length r = Nat.max (length a) (length b).
Proof. intros C. apply bc_common in C. apply bc_dims in C. rewrite !rev_length in C. apply C. Qed.
Lemma common_stretches a b r : common a b r -> stretches (rev a) (rev r).
Proof.
  intros C. apply bc_common in C. revert C. generalize (rev a) (rev b) (rev r). clear. induction l as [|n u IH]; intros v w H; [exact I|].
  destruct v as [|m v]; cbn [bc] in H; [injection H as <-; cbn; split; [auto|apply stretches_refl]|].
  destruct (if Nat.eqb n m then Ok n else if Nat.eqb n 1 then Ok m else if Nat.eqb m 1 then Ok n else Raise ValueError) as [d|] eqn:E; [|discriminate]. cbn [rbind] in H.
  destruct (bc u v) as [r|] eqn:F; [|discriminate]. cbn [rbind] in H. injection H as <-. cbn [stretches]. split; [|exact (IH v r F)].
  destruct (Nat.eqb_spec n m); [injection E as <-; auto|]. destruct (Nat.eqb_spec n 1); [auto|]. destruct (Nat.eqb_spec m 1); [injection E as <-; auto|discriminate].
Qed.
Lemma stretches_common a b : stretches (rev a) (rev b) -> common a b b.
Proof. intros H. apply bc_common. apply bc_stretch, H. Qed.
Lemma common_nil_l b r : common [] b r <-> r = b.
Proof.
  rewrite <- bc_common. cbn. split; [intros [= E]; rewrite <- (rev_involutive r), <- E; apply rev_involutive|intros ->; reflexivity].
Qed.
Lemma common_assoc a b c bc_ r : common b c bc_ -> common a bc_ r -> exists ab, common a b ab /\ common ab c r.
Proof.
  intros H1 H2. apply bc_common in H1, H2. cut (exists w, bc (rev a) (rev b) = Ok w /\ bc w (rev c) = Ok (rev r)).
  { intros (w & E1 & E2). exists (rev w). rewrite <- !bc_common, !rev_involutive. auto. }
  revert H1 H2. generalize (rev a) (rev b) (rev c) (rev bc_) (rev r). clear. induction l as [|n u IH]; intros v t vt w H1 H2.
  { cbn in H2. injection H2 as <-. exists v. split; [reflexivity|exact H1]. }
  destruct v as [|m v].
  { cbn in H1. injection H1 as <-. exists (n :: u). split; [reflexivity|exact H2]. }
  destruct t as [|p t].
  { cbn in H1. injection H1 as <-. exists w. split; [exact H2|]. destruct w; reflexivity. }
  cbn [bc] in H1. destruct (if Nat.eqb m p then Ok m else if Nat.eqb m 1 then Ok p else if Nat.eqb p 1 then Ok m else Raise ValueError) as [d|] eqn:E1; [|discriminate]. cbn [rbind] in H1.
  destruct (bc v t) as [vt'|] eqn:F1; [|discriminate]. cbn [rbind] in H1. injection H1 as <-. cbn [bc] in H2.
  destruct (if Nat.eqb n d then Ok n else if Nat.eqb n 1 then Ok d else if Nat.eqb d 1 then Ok n else Raise ValueError) as [d'|] eqn:E2; [|discriminate]. cbn [rbind] in H2.
  destruct (bc u vt') as [w'|] eqn:F2; [|discriminate]. cbn [rbind] in H2. injection H2 as <-. destruct (IH v t vt' w' F1 F2) as (uv & G1 & G2). cbn [bc]. rewrite G1.
  cut (exists k, (if Nat.eqb n m then Ok n else if Nat.eqb n 1 then Ok m else if Nat.eqb m 1 then Ok n else Raise ValueError) = Ok k /\ (if Nat.eqb k p then Ok k else if Nat.eqb k 1 then Ok p else if Nat.eqb p 1 then Ok k else Raise ValueError) = Ok d').
  { intros (k & K1 & K2). rewrite K1. cbn [rbind]. eexists. split; [reflexivity|]. cbn [bc]. rewrite K2, G2. reflexivity. }
  clear - E1 E2. destruct (Nat.eqb_spec m p); [|destruct (Nat.eqb_spec m 1); [|destruct (Nat.eqb_spec p 1); [|discriminate]]]; injection E1 as <-;
  repeat match type of E2 with context [Nat.eqb ?a ?b] => destruct (Nat.eqb_spec a b) end; try discriminate; injection E2 as <-; subst;
  repeat match goal with |- context [Nat.eqb ?a ?b] => destruct (Nat.eqb_spec a b) end; subst; try congruence; eexists; (split; [reflexivity|]);
  repeat match goal with |- context [Nat.eqb ?a ?b] => destruct (Nat.eqb_spec a b) end; subst; congruence.
Qed.
Lemma batch_facing s idx : batch s idx = facing Leftward s idx.
Proof. unfold batch, facing. rewrite clip_project. reflexivity. Qed.
Lemma batch_inside a r idx : stretches (rev a) (rev r) -> inside r idx -> inside a (batch a idx).
Proof.
  intros H I. apply inside_rev in I. unfold batch. rewrite <- (rev_involutive a) at 1. apply inside_rev. revert H I. generalize (rev a) (rev r) (rev idx). clear.
  induction l as [|n u IH]; intros w i H I; cbn [clip]; [constructor|]. destruct w as [|m w]; [contradiction|]. inversion I as [|? j ? i' Hj Hi]; subst. cbn [clip stretches] in *. constructor; [|eapply IH; [apply H|exact Hi]].
  destruct H as [H _]. destruct (Nat.eqb_spec n 1); lia.
Qed.
Lemma batch_same a idx : inside a idx -> batch a idx = idx.
Proof. intros I. unfold batch. rewrite clip_inside by (apply inside_rev, I). apply rev_involutive. Qed.
Lemma batch_batch a r idx : stretches (rev a) (rev r) -> batch a (batch r idx) = batch a idx.
Proof.
  intros H. unfold batch. rewrite rev_involutive. f_equal. revert H. generalize (rev a) (rev r) (rev idx). clear.
  induction l as [|n u IH]; intros w i H; [reflexivity|]. destruct w as [|m w]; [contradiction|]. destruct i as [|j i]; [reflexivity|]. cbn [clip stretches] in *. destruct H as [H1 H2]. rewrite IH by exact H2. f_equal.
  destruct (Nat.eqb_spec n 1), (Nat.eqb_spec m 1); try reflexivity. lia.
Qed.
Lemma batch_length a r : stretches (rev a) (rev r) -> forall idx, inside r idx -> length (batch a idx) = length a.
Proof. intros H idx I. apply inside_length, (batch_inside a r); assumption. Qed.

(** ** Reshape *)
Lemma reshape_groups {A} (x : array A) s1 s2 s3 t1 t2 t3 : ashape x = s1 ++ s2 ++ s3 -> prod s1 = prod t1 -> prod s2 = prod t2 -> prod s3 = prod t3 ->
  exists y, reshape x (t1 ++ t2 ++ t3) = Ok y /\ ashape y = t1 ++ t2 ++ t3 /\
  forall i1 i2 i3 j1 j2 j3, inside s1 i1 -> inside s2 i2 -> inside s3 i3 -> length j1 = length t1 -> length j2 = length t2 ->
  flat s1 i1 = flat t1 j1 -> flat s2 i2 = flat t2 j2 -> flat s3 i3 = flat t3 j3 -> aval y (j1 ++ j2 ++ j3) = aval x (i1 ++ i2 ++ i3).
Proof.
  intros S E1 E2 E3. rewrite reshape_ok by (rewrite S, !prod_app; congruence). eexists. split; [reflexivity|]. split; [reflexivity|].
  intros i1 i2 i3 j1 j2 j3 I1 I2 I3 L1 L2 F1 F2 F3. cbn [aval]. f_equal. rewrite S, !flat_app, prod_app by assumption. rewrite <- E2, <- E3, <- F1, <- F2, <- F3, <- prod_app.
  rewrite <- (flat_app s2 s3) by (apply inside_length, I2). rewrite <- (flat_app s1 (s2 ++ s3)) by (apply inside_length, I1).
  apply unflat_flat. apply inside_app; [symmetry; apply inside_length, I1|]. split; [exact I1|]. apply inside_app; [symmetry; apply inside_length, I2|]. auto.
Qed.
Lemma flat_one n k : flat [n] [k] = k. Proof. cbn. lia. Qed.
Lemma prod_one n : prod [n] = n. Proof. cbn. lia. Qed.
Lemma inside_one n k : k < n -> inside [n] [k]. Proof. intros H. constructor; [exact H|constructor]. Qed.

Section Dense.
Context {K : cring}.
Add Ring KringD : (rth K).
Notation dense := (dense K).
Lemma lsum_flat sn (g : nat -> K) : lsum (map (fun jn => g (flat sn jn)) (indices sn)) = sum (prod sn) g.
Proof. rewrite indices_unflat, map_map, <- lsum_map_seq. f_equal. apply map_ext_in. intros k Hk. apply in_seq in Hk. rewrite flat_unflat by lia. reflexivity. Qed.
Lemma lsum_indices_app s t (f : list nat -> K) : lsum (map f (indices (s ++ t))) = lsum (map (fun i => lsum (map (fun j => f (i ++ j)) (indices t))) (indices s)).
Proof.
  revert f. induction s as [|n s IH]; intros f; cbn [app indices].
  - cbn [map app]. unfold lsum. cbn [fold_right]. ring_simplify. reflexivity.
  - rewrite !map_flat_map, !lsum_flat_map. apply lsum_ext. intros i _. rewrite !map_map, IH. apply lsum_ext. intros j _. reflexivity.
Qed.

Lemma blocks_parts (op : dense) sl sm sn : blocks op sl sm sn -> d_sl op = sl /\ d_sm op = sm /\ d_sn op = sn.
Proof.
  intros (S & E & O & I & _). unfold d_sl, d_sm, d_sn. rewrite S, E, O, I. split; [apply firstn_app_l; reflexivity|]. split.
  - rewrite last_n_app by (rewrite app_length; lia). apply but_last_app. reflexivity.
  - rewrite app_assoc. apply last_n_app. reflexivity.
Qed.
Lemma matrix_ok (op : dense) sl sm sn : blocks op sl sm sn -> exists a, d_matrix op = Ok a /\ ashape a = sl ++ [prod sm; prod sn] /\
  forall il im jn, inside sl il -> inside sm im -> inside sn jn -> aval a (il ++ [flat sm im] ++ [flat sn jn]) = aval (d_data op) (il ++ im ++ jn).
Proof.
  intros B. unfold d_matrix. destruct (blocks_parts op sl sm sn B) as (-> & -> & ->). destruct B as (S & _).
  destruct (reshape_groups (d_data op) sl sm sn sl [prod sm] [prod sn] S eq_refl) as (a & E & Sa & V); try (symmetry; apply prod_one).
  exists a. split; [exact E|]. split; [exact Sa|]. intros il im jn Hl Hm Hn. apply V; auto; try (rewrite flat_one; reflexivity). apply inside_length, Hl.
Qed.
(** the input and the output of the two branches *)
Lemma input_left (x : array K) p sn : ashape x = p ++ sn -> 1 <= length sn -> exists x', (if 1 <? length sn then reshape x (but_last (length sn) (ashape x) ++ [prod sn]) else Ok x) = Ok x' /\
  ashape x' = p ++ [prod sn] /\ forall ip jn, inside p ip -> inside sn jn -> aval x' (ip ++ [flat sn jn]) = aval x (ip ++ jn).
Proof.
  intros S L. destruct (Nat.ltb_spec 1 (length sn)).
  - rewrite S, but_last_app by reflexivity. destruct (reshape_groups x p sn [] p [prod sn] []) as (y & E & Sy & V); auto; [rewrite app_nil_r; exact S|symmetry; apply prod_one|].
    rewrite !app_nil_r in E. rewrite app_nil_r in Sy. exists y. split; [exact E|]. split; [exact Sy|]. intros ip jn Hp Hn.
    specialize (V ip jn [] ip [flat sn jn] []). rewrite !app_nil_r in V. apply V; auto; try constructor. { apply inside_length, Hp. } rewrite flat_one. reflexivity.
  - destruct sn as [|n [|]]; cbn in *; try lia. exists x. split; [reflexivity|]. rewrite Nat.mul_1_r. split; [exact S|]. intros ip jn Hp Hn. inversion Hn as [|? j ? l Hj Hl]; subst. inversion Hl; subst. cbn. rewrite Nat.mul_1_r, Nat.add_0_r. reflexivity.
Qed.
Lemma output_left out r sm : out = r ++ sm -> 1 <= length sm -> (if 1 <? length sm then but_last (length sm) out ++ [prod sm] else out) = r ++ [prod sm].
Proof. intros -> L. destruct (Nat.ltb_spec 1 (length sm)); [rewrite but_last_app by reflexivity; reflexivity|]. destruct sm as [|m [|]]; cbn in *; try lia. rewrite Nat.mul_1_r. reflexivity. Qed.

Lemma direct_ok (op : dense) sl sm sn (x : array K) p q r : blocks op sl sm sn -> batched (d_bcast op) (d_extra op) p q -> ashape x = p ++ sn ++ q -> common sl p r ->
  exists y, direct op x (r ++ sm ++ q) = Ok y /\ is_image (d_data op) sl sm sn p q r x y.
Proof.
  intros B Q S C. destruct (matrix_ok op sl sm sn B) as (a & Ea & Sa & Va). pose proof (blocks_parts op sl sm sn B) as (_ & Pm & Pn). destruct B as (_ & E & O & I & Lm & Ln & Cl).
  pose proof (common_stretches _ _ _ C) as St1. pose proof (common_stretches _ _ _ (common_sym _ _ _ C)) as St2. pose proof C as Bc. apply bc_common in Bc.
  assert (forall y, ashape y = r ++ [prod sm] -> q = [] ->
    (forall ir im, inside r ir -> inside sm im -> aval y (ir ++ [flat sm im]) = lsum (map (fun jn => rmul (aval (d_data op) (facing Leftward sl ir ++ im ++ jn)) (aval x (facing Leftward p ir ++ jn))) (indices sn))) ->
    exists z, reshape y (r ++ sm ++ q) = Ok z /\ is_image (d_data op) sl sm sn p q r x z) as Out.
  { intros y Sy -> V. destruct (reshape_groups y r [prod sm] [] r sm []) as (z & Ez & Sz & Vz); auto; [apply prod_one|]. exists z. split; [exact Ez|]. split; [exact S|]. split; [exact Sz|].
    intros ir im iq Hr Hm Hq. assert (iq = []) as -> by (inversion Hq; reflexivity). rewrite (Vz ir [flat sm im] [] ir im []); auto; try constructor; auto.
    - rewrite app_nil_r, V by assumption. apply lsum_ext. intros jn _. rewrite app_nil_r. reflexivity.
    - apply flat_lt, Hm.
    - apply inside_length, Hr.
    - apply inside_length, Hm.
    - rewrite flat_one. reflexivity. }
  assert (forall y, ashape y = r ++ [prod sm; prod q] ->
    (forall ir im iq, inside r ir -> inside sm im -> inside q iq -> aval y (ir ++ [flat sm im] ++ [flat q iq]) = lsum (map (fun jn => rmul (aval (d_data op) (facing Leftward sl ir ++ im ++ jn)) (aval x (facing Leftward p ir ++ jn ++ iq))) (indices sn))) ->
    exists z, reshape y (r ++ sm ++ q) = Ok z /\ is_image (d_data op) sl sm sn p q r x z) as OutR.
  { intros y Sy V. destruct (reshape_groups y r [prod sm] [prod q] r sm q) as (z & Ez & Sz & Vz); auto; try apply prod_one. exists z. split; [exact Ez|]. split; [exact S|]. split; [exact Sz|].
    intros ir im iq Hr Hm Hq. rewrite (Vz ir [flat sm im] [flat q iq] ir im iq); auto; try (apply inside_one, flat_lt; assumption); try (apply inside_length; assumption); rewrite flat_one; reflexivity. }
  assert (exists xr, reshape x (p ++ [prod sn; prod q]) = Ok xr /\ ashape xr = p ++ [prod sn; prod q] /\
    forall ip jn iq, inside p ip -> inside sn jn -> inside q iq -> aval xr (ip ++ [flat sn jn] ++ [flat q iq]) = aval x (ip ++ jn ++ iq)) as (xr & Exr & Sxr & Vxr).
  { destruct (reshape_groups x p sn q p [prod sn] [prod q]) as (z & Ez & Sz & Vz); auto; try (symmetry; apply prod_one). exists z. split; [exact Ez|]. split; [exact Sz|].
    intros ip jn iq Hp Hn Hq. apply Vz; auto; try (apply inside_length; assumption); rewrite flat_one; reflexivity. }
  assert (length (ashape x) = length p + d_in op + length q) as Lx by (rewrite S, !app_length; lia).
  assert (forall ir, inside r ir -> inside sl (batch sl ir) /\ inside p (batch p ir)) as Ib by (intros ir Hr; split; eapply batch_inside; eauto).
  unfold direct. destruct (d_class op) eqn:Ec.
  2:{ (* DenseOperator *)
    rewrite (Cl eq_refl) in *. cbn [length] in E. apply common_nil_l in C. subst r. unfold d_direct. rewrite Ea. cbn [rbind]. rewrite Pm, Pn. cbn [app] in Sa.
    assert (forall ir, facing Leftward [] ir = []) as F0 by reflexivity.
    destruct (match d_bcast op with Leftward => true | _ => false end || (length (ashape x) =? d_in op))%bool eqn:Br.
    - assert (q = []) as ->. { apply orb_prop in Br. destruct (d_bcast op) eqn:Eb; cbn in Q; try tauto; destruct Br as [Br|Br]; try discriminate; apply Nat.eqb_eq in Br; destruct q; cbn in *; try reflexivity; try lia. }
      rewrite app_nil_r in S. rewrite I. destruct (input_left x p sn S Ln) as (x' & -> & Sx' & Vx'). cbn [rbind]. rewrite O, (output_left _ p sm) by (auto; rewrite app_nil_r; reflexivity).
      unfold dot_left. rewrite Sa, Sx', last_n_app, but_last_app by reflexivity. rewrite Nat.eqb_refl, shape_eqb_refl. cbn [andb rbind].
      apply Out; [reflexivity|reflexivity|]. intros ir im Hr Hm. cbn [aval]. rewrite but_last_app, last_n_app by reflexivity.
      rewrite <- (lsum_flat sn (fun j => (aval x' (ir ++ [j]) * aval a ([flat sm im] ++ [j]))%cr)). apply lsum_ext. intros jn Hj. apply in_indices in Hj.
      rewrite Vx' by assumption. pose proof (Va [] im jn) as V0. cbn [app] in V0. cbn [app]. rewrite V0 by (auto; constructor).
      rewrite F0, <- (batch_facing p ir), (batch_same p ir) by exact Hr. cbn [app]. ring.
    - destruct (d_bcast op) eqn:Eb; try discriminate; cbn [orb] in Br; apply Nat.eqb_neq in Br; cbn in Q; try (destruct Q as [-> Q]; cbn in Lx; lia).
      assert (p = []) as -> by (destruct p; [reflexivity|cbn in *; lia]). cbn [app] in *. rewrite S, I, skipn_app_l by reflexivity. rewrite Exr. cbn [rbind]. rewrite O, skipn_app_l by reflexivity.
      unfold dot_right. rewrite Sa, Sxr, Nat.eqb_refl, shape_eqb_refl. cbn [andb rbind]. apply OutR; [reflexivity|]. intros ir im iq Hr Hm Hq. cbn [aval]. assert (ir = []) as -> by (inversion Hr; reflexivity). cbn [app firstn skipn].
      rewrite <- (lsum_flat sn (fun j => (aval a [flat sm im; j] * aval xr [j; flat q iq])%cr)). apply lsum_ext. intros jn Hj. apply in_indices in Hj.
      pose proof (Va [] im jn) as V0. cbn [app] in V0. rewrite V0 by (auto; constructor). pose proof (Vxr [] jn iq) as V1. cbn [app] in V1. rewrite V1 by auto. reflexivity. }
  all: unfold bd_direct; rewrite Ea; cbn [rbind]; rewrite Pm, Pn;
    (destruct (match d_bcast op with Leftward => true | _ => false end || (length (ashape x) <=? d_extra op + d_in op))%bool eqn:Br;
    [ assert (q = []) as -> by (apply orb_prop in Br; destruct (d_bcast op) eqn:Eb; cbn in Q; try tauto; try (destruct Q as [Q|[_ Q]]; [|exact Q]); destruct Br as [Br|Br]; try discriminate; apply Nat.leb_le in Br; destruct q; cbn in *; try reflexivity; lia);
      rewrite app_nil_r in S; rewrite I; destruct (input_left x p sn S Ln) as (x' & -> & Sx' & Vx'); cbn [rbind]; rewrite O, (output_left _ r sm) by (auto; rewrite app_nil_r; reflexivity);
      unfold einsum_mn_n; rewrite Sa, Sx', (last_n_app sl), (last_n_app p), (but_last_app sl), (but_last_app p) by reflexivity; rewrite Nat.eqb_refl, Bc; cbn [rbind]; rewrite rev_involutive, shape_eqb_refl; cbn [rbind];
      apply Out; [reflexivity|reflexivity|]; intros ir im Hr Hm; cbn [aval]; rewrite but_last_app, last_n_app by reflexivity;
      rewrite <- (lsum_flat sn (fun j => (aval a (batch sl ir ++ [flat sm im] ++ [j]) * aval x' (batch p ir ++ [j]))%cr)); apply lsum_ext; intros jn Hj; apply in_indices in Hj; destruct (Ib ir Hr);
      rewrite Va, Vx' by assumption; rewrite !batch_facing; reflexivity
    | destruct (d_bcast op) eqn:Eb; try discriminate; cbn [orb] in Br; apply Nat.leb_gt in Br; cbn in Q; try (destruct Q as [-> Q]; cbn in Lx; lia);
      assert (length p = length sl) as Lp by (destruct Q as [Q|[Q ->]]; [lia|cbn in Lx; lia]);
      pose proof (common_length _ _ _ C) as Lr; rewrite Lp, Nat.max_id in Lr;
      rewrite S, E, I, (firstn_app_l p), (app_assoc p), (skipn_app_l (p ++ sn)) by (rewrite ?app_length; lia); rewrite Exr; cbn [rbind];
      destruct (Nat.ltb_spec (length sl + d_out op) (length (r ++ sm ++ q))); [|rewrite !app_length in *; lia];
      rewrite O, (firstn_app_l r), (app_assoc r), (skipn_app_l (r ++ sm)) by (rewrite ?app_length; lia);
      unfold einsum_mn_np; rewrite Sa, Sxr, (last_n_app sl), (last_n_app p), (but_last_app sl), (but_last_app p) by reflexivity; rewrite Nat.eqb_refl, Bc; cbn [rbind]; rewrite rev_involutive, shape_eqb_refl; cbn [rbind];
      rewrite <- app_assoc; apply OutR; [reflexivity|]; intros ir im iq Hr Hm Hq; cbn [aval];
      rewrite (but_last_app ir), (last_n_app ir) by reflexivity; rewrite (app_assoc ir), last_n_app by reflexivity; change (but_last 1 ([flat sm im] ++ [flat q iq])) with [flat sm im];
      rewrite <- (lsum_flat sn (fun j => (aval a (batch sl ir ++ [flat sm im] ++ [j]) * aval xr (batch p ir ++ [j] ++ [flat q iq]))%cr)); apply lsum_ext; intros jn Hj; apply in_indices in Hj; destruct (Ib ir Hr);
      rewrite Va, Vxr by assumption; rewrite !batch_facing; reflexivity ]).
Qed.

Lemma common_last u v sl r : common (u ++ v) sl r -> length v = length sl -> exists r', common v sl r'.
Proof.
  intros C L. apply bc_common in C. destruct (bc_dims _ _ _ C) as [_ J]. rewrite rev_app_distr in J. destruct (bc_total (rev v) (rev sl)) as [w E].
  - intros k. destruct (Nat.lt_ge_cases k (length v)) as [Hk|Hk].
    + specialize (J k). rewrite app_nth1 in J by (rewrite rev_length; exact Hk). unfold join in J. lia.
    + left. apply nth_overflow. rewrite rev_length. exact Hk.
  - exists (rev w). apply bc_common. rewrite rev_involutive. exact E.
Qed.
Lemma accepted (op : dense) sl sm sn s p q r : blocks op sl sm sn -> batched (d_bcast op) (d_extra op) p q -> s = p ++ sn ++ q -> common sl p r ->
  validatein op s = Ok tt /\ reshapein op s = Ok (r ++ sm ++ q).
Proof.
  intros B Q -> C. pose proof (blocks_parts op sl sm sn B) as (Pl & Pm & Pn). destruct B as (_ & E & O & I & Lm & Ln & Cl). pose proof (common_sym _ _ _ C) as C'.
  unfold validatein, reshapein. rewrite Pl, Pm, Pn. destruct (Nat.ltb_spec (length (p ++ sn ++ q)) (d_in op)) as [H|H]; [rewrite !app_length in H; lia|]. clear H.
  rewrite !app_length. destruct (Nat.leb_spec (length p + (length sn + length q)) (d_extra op + d_in op)) as [H|H].
  - assert (q = []) as -> by (destruct (d_bcast op); cbn in Q; try tauto; destruct Q as [Q|[_ Q]]; [destruct q; [reflexivity|cbn in H; lia]|exact Q]).
    rewrite orb_true_r, app_nil_r, but_last_app, last_n_app by exact I. cbn [rbind fst snd]. rewrite shape_eqb_refl. apply bs_common in C'. rewrite C'. cbn [rbind]. rewrite app_nil_r. auto.
  - destruct (d_bcast op) eqn:Eb; cbn in Q; try (destruct Q as [-> Q]; cbn in H; lia).
    + subst q. cbn [orb]. rewrite app_nil_r, (but_last_app p), (last_n_app p sn (d_in op)) by exact I. destruct (split_last p (d_extra op)) as (u & v & -> & Lv); [cbn in H; lia|].
      rewrite <- app_assoc, (last_n_app u) by (rewrite app_length; lia). rewrite but_last_app by exact I. cbn [rbind fst snd]. rewrite shape_eqb_refl.
      destruct (common_last u v sl r C') as [r' C2]; [lia|]. apply bs_common in C2. rewrite C2. apply bs_common in C'. rewrite C'. cbn [rbind]. rewrite app_nil_r. auto.
    + assert (length p = d_extra op) as Lp by (destruct Q as [Q|[Q ->]]; [exact Q|cbn in H; lia]). cbn [orb]. rewrite !(firstn_app_l p), (skipn_app_l p) by auto. rewrite firstn_app_l by exact I.
      rewrite app_assoc, skipn_app_l by (rewrite app_length; lia). cbn [rbind fst snd]. rewrite shape_eqb_refl. apply bs_common in C'. rewrite C'. auto.
Qed.
Lemma call_ok (op : dense) sl sm sn (x : array K) p q r : blocks op sl sm sn -> batched (d_bcast op) (d_extra op) p q -> ashape x = p ++ sn ++ q -> common sl p r ->
  exists y, call op x = Ok y /\ is_image (d_data op) sl sm sn p q r x y.
Proof.
  intros B Q S C. destruct (accepted op sl sm sn (ashape x) p q r B Q S C) as [V R]. unfold call. rewrite V, R. cbn [rbind]. apply direct_ok; assumption.
Qed.
Lemma shape_eqb_true a b : shape_eqb a b = true -> a = b.
Proof. unfold shape_eqb. destruct (list_eq_dec Nat.eq_dec a b); [auto|discriminate]. Qed.
Lemma call_inv (op : dense) sl sm sn (x y : array K) : blocks op sl sm sn -> call op x = Ok y ->
  exists p q r, batched (d_bcast op) (d_extra op) p q /\ ashape x = p ++ sn ++ q /\ common sl p r /\ is_image (d_data op) sl sm sn p q r x y.
Proof.
  intros B H. cut (exists p q r, batched (d_bcast op) (d_extra op) p q /\ ashape x = p ++ sn ++ q /\ common sl p r).
  { intros (p & q & r & Q & S & C). destruct (call_ok op sl sm sn x p q r B Q S C) as (y' & E & Im). rewrite E in H. injection H as <-. exists p, q, r. auto. }
  pose proof (blocks_parts op sl sm sn B) as (Pl & Pm & Pn). destruct B as (_ & E & O & I & Lm & Ln & Cl).
  unfold call, validatein, reshapein in H. rewrite Pl, Pm, Pn in H. set (s := ashape x) in *. destruct (Nat.ltb_spec (length s) (d_in op)) as [|H0]; [discriminate|].
  destruct (Nat.leb_spec (length s) (d_extra op + d_in op)) as [H1|H1].
  - rewrite orb_true_r in H. cbn [rbind fst snd] in H. destruct (split_last s (d_in op) H0) as (p & v & Es & Lv). rewrite Es in H. rewrite !but_last_app, last_n_app in H by auto.
    destruct (shape_eqb v sn) eqn:Ev; [|discriminate]. apply shape_eqb_true in Ev. subst v. destruct (broadcast_shapes [p; sl]) as [r|] eqn:F; [|discriminate]. apply bs_common in F.
    exists p, [], r. rewrite app_nil_r. split; [|split; [exact Es|apply common_sym, F]]. rewrite Es, app_length in H1. destruct (d_bcast op); cbn; try (split; [reflexivity|lia]); try reflexivity. destruct (Nat.eq_dec (length p) (d_extra op)); [left; assumption|right; split; [lia|reflexivity]].
  - destruct (d_bcast op) eqn:Eb; try discriminate; cbn [orb rbind fst snd] in H.
    + destruct (split_last s (d_in op) H0) as (p & v & Es & Lv). rewrite Es in H. rewrite (but_last_app p), (last_n_app p) in H by auto.
      destruct (shape_eqb v sn) eqn:Ev; [|discriminate]. apply shape_eqb_true in Ev. subst v. destruct (broadcast_shapes [but_last _ _; sl]) as [r0|] eqn:F0 in H; [|discriminate]. cbn [rbind] in H.
      destruct (broadcast_shapes [p; sl]) as [r|] eqn:F; [|discriminate]. apply bs_common in F.
      exists p, [], r. rewrite app_nil_r. split; [reflexivity|split; [exact Es|apply common_sym, F]].
    + destruct (split_first s (d_extra op)) as (p & t & Es & Lp); [lia|]. rewrite Es in H, H1. rewrite app_length in H1. destruct (split_first t (d_in op)) as (v & q & -> & Lv); [lia|].
      rewrite !(firstn_app_l p), (skipn_app_l p) in H by auto. rewrite firstn_app_l in H by auto.
      destruct (shape_eqb v sn) eqn:Ev; [|discriminate]. apply shape_eqb_true in Ev. subst v. destruct (broadcast_shapes [p; sl]) as [r|] eqn:F; [|discriminate]. apply bs_common in F.
      exists p, q, r. split; [left; exact Lp|split; [exact Es|apply common_sym, F]].
Qed.

(** ** The transpose *)
Lemma make_axes_ok n i o : 1 <= i -> 1 <= o -> i + o <= n -> make_axes n None (Some i) (Some o) None = Ok (i, o, n - i - o).
Proof. intros. unfold make_axes. cbn [rbind]. replace (i + o + (n - i - o)) with n by lia. rewrite Nat.eqb_refl. reflexivity. Qed.
Lemma block_diagonal_ok (data : array K) sl sm sn b : ashape data = sl ++ sm ++ sn -> 1 <= length sm -> 1 <= length sn ->
  exists op, block_diagonal data None (Some (length sn)) (Some (length sm)) b = Ok op /\ blocks op sl sm sn /\ d_data op = data /\ d_bcast op = b /\ d_extra op = length sl /\ (d_class op = Dense \/ d_class op = BlockDiagonal).
Proof.
  intros S Lm Ln. unfold block_diagonal. rewrite make_axes_ok; [|assumption..|rewrite S, !app_length; lia]. cbn [rbind]. eexists. split; [reflexivity|].
  assert (length (ashape data) - length sn - length sm = length sl) as -> by (rewrite S, !app_length; lia).
  split; [|cbn; split; [reflexivity|split; [reflexivity|split; [reflexivity|destruct (length sl =? 0); auto]]]].
  unfold blocks. cbn. repeat (split; [assumption || reflexivity|]). destruct (Nat.eqb_spec (length sl) 0); [|discriminate]. intros _. destruct sl; [reflexivity|discriminate].
Qed.
Lemma rollaxis_ok (a : array K) s1 s2 n : ashape a = s1 ++ s2 ++ [n] -> ashape (rollaxis a (length s1)) = s1 ++ [n] ++ s2 /\
  forall i1 i2 j, length i1 = length s1 -> aval (rollaxis a (length s1)) (i1 ++ [j] ++ i2) = aval a (i1 ++ i2 ++ [j]).
Proof.
  intros S. unfold rollaxis. cbn [ashape aval]. rewrite S, (app_assoc s1 s2 [n]), !(but_last_app (s1 ++ s2)), (last_n_app (s1 ++ s2)) by reflexivity. split; [rewrite firstn_app_l, skipn_app_l by reflexivity; reflexivity|].
  intros i1 i2 j L. rewrite (firstn_app_l i1), (skipn_app_l i1 ([j] ++ i2) (length s1)) by auto. rewrite (app_assoc i1 [j] i2), skipn_app_l by (rewrite app_length; cbn; lia). reflexivity.
Qed.
Lemma roll_axes_ok v : forall (a : array K) s1 s2, ashape a = s1 ++ s2 ++ v -> ashape (roll_axes (length v) (length s1) a) = s1 ++ v ++ s2 /\
  forall i1 i2 j, length i1 = length s1 -> length i2 = length s2 -> length j = length v -> aval (roll_axes (length v) (length s1) a) (i1 ++ j ++ i2) = aval a (i1 ++ i2 ++ j).
Proof.
  induction v as [|n v IH] using rev_ind; intros a s1 s2 S.
  - cbn [length roll_axes]. rewrite app_nil_r in S. split; [exact S|]. intros i1 i2 j _ _ L. destruct j; [|discriminate]. rewrite app_nil_r. reflexivity.
  - rewrite app_length, Nat.add_1_r. cbn [roll_axes]. destruct (rollaxis_ok a s1 (s2 ++ v) n) as [S' V']; [rewrite S, <- app_assoc; reflexivity|].
    destruct (IH (rollaxis a (length s1)) s1 ([n] ++ s2)) as [S2 V2]; [rewrite S', <- app_assoc; reflexivity|]. split; [rewrite S2, <- app_assoc; reflexivity|].
    intros i1 i2 j L1 L2 Lj. destruct (exists_last (l := j)) as (j' & k & ->); [intros ->; cbn in Lj; lia|]. rewrite app_length in Lj. cbn in Lj.
    rewrite <- app_assoc, V2 by (cbn; lia). rewrite <- (app_assoc [k]), V' by exact L1. rewrite <- app_assoc. reflexivity.
Qed.
Lemma rule_T_ok (op : dense) sl sm sn : blocks op sl sm sn -> exists op', rule_T op = Ok op' /\ blocks op' sl sn sm /\ d_bcast op' = d_bcast op /\
  forall il im jn, inside sl il -> inside sm im -> inside sn jn -> aval (d_data op') (il ++ jn ++ im) = aval (d_data op) (il ++ im ++ jn).
Proof.
  intros (S & E & O & I & Lm & Ln & Cl). unfold rule_T. rewrite E, O, I. destruct (roll_axes_ok sn (d_data op) sl sm S) as [S' V].
  destruct (block_diagonal_ok _ sl sn sm (d_bcast op) S' Ln Lm) as (op' & Eo & B' & Ed & Eb & _). exists op'. split; [exact Eo|]. split; [exact B'|]. split; [exact Eb|].
  intros il im jn Hl Hm Hn. rewrite Ed. apply V; apply inside_length; assumption.
Qed.
Lemma blocks_batched (op op' : dense) sl sm sn sm' sn' p q : blocks op sl sm sn -> blocks op' sl sm' sn' -> d_bcast op' = d_bcast op -> batched (d_bcast op) (d_extra op) p q -> batched (d_bcast op') (d_extra op') p q.
Proof. intros (_ & E & _) (_ & E' & _) Eb Q. rewrite Eb, E', <- E. exact Q. Qed.
(** batches that are not stretched *)
Lemma image_adjoint (data data' : array K) sl sm sn p q (x y z t : array K) : stretches (rev sl) (rev p) ->
  (forall il im jn, inside sl il -> inside sm im -> inside sn jn -> aval data' (il ++ jn ++ im) = aval data (il ++ im ++ jn)) ->
  is_image data sl sm sn p q p x y -> is_image data' sl sn sm p q p z t -> inner y z = inner x t.
Proof.
  intros St Hd (Sx & Sy & V) (Sz & St' & W). unfold inner. rewrite Sx, Sy, !lsum_indices_app. apply lsum_ext. intros ip Hp. apply in_indices in Hp.
  assert (inside sl (facing Leftward sl ip)) as Hl by (rewrite <- batch_facing; apply (batch_inside sl p); assumption).
  assert (facing Leftward p ip = ip) as Fp by (rewrite <- batch_facing; apply batch_same, Hp).
  rewrite !lsum_indices_app.
  transitivity (lsum (map (fun im => lsum (map (fun jn => lsum (map (fun iq => (aval data (facing Leftward sl ip ++ im ++ jn) * aval x (ip ++ jn ++ iq) * aval z (ip ++ im ++ iq))%cr) (indices q))) (indices sn))) (indices sm))).
  - apply lsum_ext. intros im Hm. apply in_indices in Hm. rewrite <- (lsum_swap (fun iq jn => (aval data (facing Leftward sl ip ++ im ++ jn) * aval x (ip ++ jn ++ iq) * aval z (ip ++ im ++ iq))%cr)).
    apply lsum_ext. intros iq Hq. apply in_indices in Hq. rewrite V by assumption. rewrite lsum_mul_r, map_map, Fp. reflexivity.
  - rewrite (lsum_swap (fun im jn => lsum (map (fun iq => (aval data (facing Leftward sl ip ++ im ++ jn) * aval x (ip ++ jn ++ iq) * aval z (ip ++ im ++ iq))%cr) (indices q)))).
    apply lsum_ext. intros jn Hn. apply in_indices in Hn. rewrite (lsum_swap (fun im iq => (aval data (facing Leftward sl ip ++ im ++ jn) * aval x (ip ++ jn ++ iq) * aval z (ip ++ im ++ iq))%cr)).
    apply lsum_ext. intros iq Hq. apply in_indices in Hq. rewrite W by assumption. rewrite (rmul_comm (aval x _)), lsum_mul_r, map_map, Fp. apply lsum_ext. intros im Hm. apply in_indices in Hm. rewrite Hd by assumption. ring.
Qed.
Lemma dense_adjoint (op : dense) sl sm sn p q (x z : array K) : blocks op sl sm sn -> batched (d_bcast op) (d_extra op) p q -> stretches (rev sl) (rev p) -> ashape x = p ++ sn ++ q -> ashape z = p ++ sm ++ q ->
  exists op' y t, rule_T op = Ok op' /\ call op x = Ok y /\ call op' z = Ok t /\ ashape y = ashape z /\ ashape t = ashape x /\ inner y z = inner x t.
Proof.
  intros B Q St Sx Sz. destruct (rule_T_ok op sl sm sn B) as (op' & Et & B' & Eb & Hd). pose proof (blocks_batched op op' sl sm sn sn sm p q B B' Eb Q) as Q'.
  pose proof (stretches_common _ _ St) as C. destruct (call_ok op sl sm sn x p q p B Q Sx C) as (y & Ey & Iy). destruct (call_ok op' sl sn sm z p q p B' Q' Sz C) as (t & Ett & It).
  exists op', y, t. repeat (split; [assumption|]). split; [destruct Iy as (_ & -> & _); auto|]. split; [destruct It as (_ & -> & _); auto|]. eapply image_adjoint; eauto.
Qed.

(** ** Products *)
Lemma rule_mul_ok (op1 op2 : dense) sl1 sm1 sn1 sl2 sm2 sn2 sl : blocks op1 sl1 sm1 sn1 -> blocks op2 sl2 sm2 sn2 -> sn1 = sm2 -> common sl1 sl2 sl ->
  exists op, rule_mul op1 op2 = Ok op /\ blocks op sl sm1 sn2 /\ d_bcast op = d_bcast op2 /\
  forall il im jn, inside sl il -> inside sm1 im -> inside sn2 jn -> aval (d_data op) (il ++ im ++ jn) =
    lsum (map (fun k => (aval (d_data op1) (batch sl1 il ++ im ++ k) * aval (d_data op2) (batch sl2 il ++ k ++ jn))%cr) (indices sn1)).
Proof.
  intros B1 B2 <- C. destruct (matrix_ok op1 sl1 sm1 sn1 B1) as (a & Ea & Sa & Va). destruct (matrix_ok op2 sl2 sn1 sn2 B2) as (b & Eb & Sb & Vb).
  pose proof (blocks_parts op1 _ _ _ B1) as (_ & Pm & Pn). pose proof (blocks_parts op2 _ _ _ B2) as (_ & Pm2 & Pn2). unfold rule_mul. rewrite Pm, Pn, Pm2, Pn2, shape_eqb_refl, Ea, Eb. cbn [rbind].
  pose proof (common_stretches _ _ _ C) as St1. pose proof (common_stretches _ _ _ (common_sym _ _ _ C)) as St2. pose proof C as Bc. apply bc_common in Bc.
  assert (exists c, (if d_extra op2 =? 0 then dot_matrix a b else einsum_ij_jk a b) = Ok c /\ ashape c = sl ++ [prod sm1; prod sn2] /\
    forall il im jn, inside sl il -> inside sm1 im -> inside sn2 jn -> aval c (il ++ [flat sm1 im] ++ [flat sn2 jn]) =
    lsum (map (fun k => (aval (d_data op1) (batch sl1 il ++ im ++ k) * aval (d_data op2) (batch sl2 il ++ k ++ jn))%cr) (indices sn1))) as (c & Ec & Sc & Vc).
  { destruct (Nat.eqb_spec (d_extra op2) 0) as [E0|E0].
    - assert (sl2 = []) as ->. { destruct B2 as (_ & E2 & _). destruct sl2; [reflexivity|]. cbn in E2. lia. } cbn [app] in Sb.
      assert (sl = sl1) as ->. { apply common_sym in C. apply common_nil_l in C. exact C. } unfold dot_matrix. rewrite Sa, Sb.
      change [prod sm1; prod sn1] with ([prod sm1] ++ [prod sn1]). rewrite app_assoc, last_n_app, but_last_app by reflexivity. rewrite Nat.eqb_refl. eexists. split; [reflexivity|]. cbn [ashape aval].
      split; [rewrite <- app_assoc; reflexivity|]. intros il im jn Hl Hm Hn. rewrite app_assoc, but_last_app, last_n_app by reflexivity.
      rewrite <- (lsum_flat sn1 (fun j => (aval a ((il ++ [flat sm1 im]) ++ [j]) * aval b (j :: [flat sn2 jn]))%cr)). apply lsum_ext. intros k Hk. apply in_indices in Hk.
      rewrite <- app_assoc, Va by assumption. pose proof (Vb [] k jn) as V0. cbn [app] in V0. rewrite V0 by (auto; constructor). rewrite (batch_same sl1) by exact Hl. reflexivity.
    - unfold einsum_ij_jk, einsum_mn_np. rewrite Sa, Sb, (last_n_app sl1), (last_n_app sl2), (but_last_app sl1), (but_last_app sl2) by reflexivity. rewrite Bc, Nat.eqb_refl. cbn [rbind]. rewrite rev_involutive, shape_eqb_refl.
      eexists. split; [reflexivity|]. split; [reflexivity|]. intros il im jn Hl Hm Hn. cbn [aval].
      rewrite (but_last_app il), (last_n_app il) by reflexivity. rewrite (app_assoc il), last_n_app by reflexivity. change (but_last 1 ([flat sm1 im] ++ [flat sn2 jn])) with [flat sm1 im].
      rewrite <- (lsum_flat sn1 (fun j => (aval a (batch sl1 il ++ [flat sm1 im] ++ [j]) * aval b (batch sl2 il ++ [j] ++ [flat sn2 jn]))%cr)). apply lsum_ext. intros k Hk. apply in_indices in Hk.
      rewrite Va, Vb; auto; eapply batch_inside; eauto. }
  rewrite Ec. cbn [rbind]. rewrite Sc, but_last_app by reflexivity. destruct (reshape_groups c sl [prod sm1] [prod sn2] sl sm1 sn2 Sc eq_refl) as (d & Ed & Sd & Vd); try apply prod_one. rewrite Ed. cbn [rbind].
  destruct B1 as (_ & _ & O1 & _ & Lm1 & _). destruct B2 as (_ & _ & _ & I2 & _ & Ln2 & _). rewrite O1, I2.
  destruct (block_diagonal_ok d sl sm1 sn2 (d_bcast op2) Sd Lm1 Ln2) as (op & Eo & B & Edt & Ebc & _). exists op. split; [exact Eo|]. split; [exact B|]. split; [exact Ebc|].
  intros il im jn Hl Hm Hn. rewrite Edt. rewrite (Vd il [flat sm1 im] [flat sn2 jn] il im jn); auto; try (apply inside_one, flat_lt; assumption); try (apply inside_length; assumption); rewrite flat_one; reflexivity.
Qed.
Lemma image_product (d1 d2 d : array K) sl1 sm1 sn1 sl2 sn2 sl p q r1 r (x y z : array K) : common sl2 p r1 -> common sl1 r1 r -> common sl1 sl2 sl -> common sl p r ->
  (forall il im jn, inside sl il -> inside sm1 im -> inside sn2 jn -> aval d (il ++ im ++ jn) =
    lsum (map (fun k => (aval d1 (batch sl1 il ++ im ++ k) * aval d2 (batch sl2 il ++ k ++ jn))%cr) (indices sn1))) ->
  is_image d2 sl2 sn1 sn2 p q r1 x y -> is_image d1 sl1 sm1 sn1 r1 q r y z -> is_image d sl sm1 sn2 p q r x z.
Proof.
  intros C1 C2 C12 C H (Sx & Sy & V) (_ & Sz & W). split; [exact Sx|]. split; [exact Sz|]. intros ir im iq Hr Hm Hq. rewrite W by assumption.
  pose proof (common_stretches _ _ _ C1) as T1. pose proof (common_stretches _ _ _ (common_sym _ _ _ C1)) as T2. pose proof (common_stretches _ _ _ (common_sym _ _ _ C2)) as T3.
  pose proof (common_stretches _ _ _ C12) as T4. pose proof (common_stretches _ _ _ (common_sym _ _ _ C12)) as T5. pose proof (common_stretches _ _ _ C) as T6.
  rewrite <- !batch_facing.
  transitivity (lsum (map (fun k => lsum (map (fun jn => (aval d1 (batch sl1 ir ++ im ++ k) * (aval d2 (batch sl2 ir ++ k ++ jn) * aval x (batch p ir ++ jn ++ iq)))%cr) (indices sn2))) (indices sn1))).
  - apply lsum_ext. intros k Hk. apply in_indices in Hk. rewrite V by (auto; eapply batch_inside; eauto). rewrite <- (batch_facing sl2), <- (batch_facing p). rewrite (batch_batch sl2 r1), (batch_batch p r1) by assumption.
    rewrite (rmul_comm (aval d1 _)), lsum_mul_r, map_map. apply lsum_ext. intros jn _. ring.
  - rewrite (lsum_swap (fun k jn => (aval d1 (batch sl1 ir ++ im ++ k) * (aval d2 (batch sl2 ir ++ k ++ jn) * aval x (batch p ir ++ jn ++ iq)))%cr)). apply lsum_ext. intros jn Hn. apply in_indices in Hn.
    rewrite H by (auto; eapply batch_inside; eauto). rewrite (batch_batch sl1 sl), (batch_batch sl2 sl) by assumption. rewrite lsum_mul_r, map_map. apply lsum_ext. intros k _. change (facing Leftward p ir) with (batch p ir). ring.
Qed.
Lemma dense_product (op1 op2 : dense) sl1 sm1 sn1 sl2 sm2 sn2 p q r1 r (x : array K) : blocks op1 sl1 sm1 sn1 -> blocks op2 sl2 sm2 sn2 -> sn1 = sm2 ->
  d_bcast op1 = d_bcast op2 -> (d_bcast op1 = Leftward \/ length sl1 = length sl2) -> batched (d_bcast op2) (length sl2) p q -> ashape x = p ++ sn2 ++ q -> common sl2 p r1 -> common sl1 r1 r ->
  exists op y z t, rule_mul op1 op2 = Ok op /\ call op2 x = Ok y /\ call op1 y = Ok z /\ call op x = Ok t /\ ashape t = ashape z /\ aeq t z.
Proof.
  intros B1 B2 E Eb M Q S C1 C2. destruct (common_assoc _ _ _ _ _ C1 C2) as (sl & C12 & C). destruct (rule_mul_ok op1 op2 sl1 sm1 sn1 sl2 sm2 sn2 sl B1 B2 E C12) as (op & Eo & B & Ebo & Hd). subst sm2.
  assert (d_extra op2 = length sl2) as X2 by apply B2. assert (d_extra op1 = length sl1) as X1 by apply B1. assert (d_extra op = length sl) as X by apply B.
  destruct (call_ok op2 sl2 sn1 sn2 x p q r1 B2) as (y & Ey & Iy); auto; [rewrite X2; exact Q|].
  pose proof (common_length _ _ _ C1) as L1. pose proof (common_length _ _ _ C12) as L12. pose proof (common_length _ _ _ C2) as L2.
  destruct (call_ok op1 sl1 sm1 sn1 y r1 q r B1) as (z & Ez & Iz); auto.
  { rewrite X1, Eb. destruct (d_bcast op2) eqn:E2; cbn in *; try exact Q; (destruct M as [M|M]; [congruence|]); first [left; lia | split; [apply Q|lia]]. } { apply Iy. }
  destruct (call_ok op sl sm1 sn2 x p q r B) as (t & Et & It); auto.
  { rewrite X, Ebo. destruct (d_bcast op2) eqn:E2; cbn in *; try exact Q; (destruct M as [M|M]; [congruence|]); replace (length sl) with (length sl2) by lia; exact Q. }
  pose proof (image_product _ _ _ _ _ _ _ _ _ _ _ _ _ _ _ _ C1 C2 C12 C Hd Iy Iz) as It'. exists op, y, z, t. repeat (split; [assumption|]).
  destruct It as (_ & St & V), It' as (_ & Sz & W). split; [congruence|]. split; [congruence|]. intros idx Hi. rewrite St in Hi.
  apply inside_app_split in Hi. destruct Hi as (ir & i' & -> & Hr & Hi & _). apply inside_app_split in Hi. destruct Hi as (im & iq & -> & Hm & Hq & _). rewrite V, W by assumption. reflexivity.
Qed.
Lemma common_unique a b r r' : common a b r -> common a b r' -> r = r'.
Proof. intros C C'. apply bs_common in C, C'. congruence. Qed.
Lemma product_call (op1 op2 : dense) sl1 sm1 sn1 sl2 sm2 sn2 (x y z : array K) : blocks op1 sl1 sm1 sn1 -> blocks op2 sl2 sm2 sn2 -> sn1 = sm2 ->
  d_bcast op1 = d_bcast op2 -> (d_bcast op1 = Leftward \/ length sl1 = length sl2) -> call op2 x = Ok y -> call op1 y = Ok z ->
  exists op t, rule_mul op1 op2 = Ok op /\ call op x = Ok t /\ aeq t z.
Proof.
  intros B1 B2 <- Eb M E2 E1. destruct (call_inv op2 sl2 sn1 sn2 x y B2 E2) as (p & q & r1 & Q & Sx & C1 & I2). destruct (call_inv op1 sl1 sm1 sn1 y z B1 E1) as (p' & q' & r & Q' & Sy & C2 & I1).
  assert (p' = r1 /\ q' = q) as [-> ->].
  { destruct I2 as (_ & Sy' & _). rewrite Sy in Sy'. assert (d_extra op2 = length sl2) as X2 by apply B2. assert (d_extra op1 = length sl1) as X1 by apply B1.
    pose proof (common_length _ _ _ C1) as L1. rewrite Eb, X1 in Q'. rewrite X2 in Q. assert (1 <= length sn1) as Ln by apply B1.
    assert (length p' = length r1) as L.
    { assert (length p' + (length sn1 + length q') = length r1 + (length sn1 + length q)) as LL by (rewrite <- !app_length; congruence).
      destruct (d_bcast op2); cbn in Q, Q'.
      - subst q q'. cbn in LL. lia.
      - destruct M as [M|M]; [congruence|]. destruct Q as [Q|[Q ->]], Q' as [Q'|[Q' ->]]; cbn in LL; lia.
      - destruct Q as [-> _], Q' as [-> _]. cbn in LL. lia.
      - destruct Q as [-> _], Q' as [-> _]. cbn in LL. lia. }
    apply app_eq_app_length in Sy'; [|exact L]. destruct Sy' as [-> Sy']. apply app_inv_head in Sy'. auto. }
  destruct (dense_product op1 op2 sl1 sm1 sn1 sl2 sn1 sn2 p q r1 r x B1 B2 eq_refl Eb M) as (op & y' & z' & t & Eo & Ey & Ez & Et & _ & A); auto. { assert (d_extra op2 = length sl2) as <- by apply B2. exact Q. }
  rewrite E2 in Ey. injection Ey as <-. rewrite E1 in Ez. injection Ez as <-. exists op, t. auto.
Qed.
(** ** Scalars *)
Lemma dense_scaled cs (op : dense) sl sm sn c (x y : array K) : blocks op sl sm sn -> d_bcast op = Leftward -> (d_class op = Dense \/ d_class op = BlockDiagonal) -> call op x = Ok y ->
  exists op' z, rule_homothety cs op c = Ok op' /\ call op' x = Ok z /\ ashape z = ashape y /\ forall idx, inside (ashape y) idx -> aval z idx = (c * aval y idx)%cr.
Proof.
  intros B Eb Cl H. destruct (call_inv op sl sm sn x y B H) as (p & q & r & Q & Sx & C & Im).
  assert (exists op', rule_homothety cs op c = Ok op' /\ blocks op' sl sm sn /\ d_bcast op' = Leftward /\ forall idx, aval (d_data op') idx = (c * aval (d_data op) idx)%cr) as (op' & Eo & B' & Eb' & Hd).
  { pose proof B as (S & E & O & I & Lm & Ln & Cl'). unfold rule_homothety. rewrite O, I. set (data := Arr (ashape (d_data op)) _). destruct Cl as [Cl|Cl]; rewrite Cl.
    - rewrite (Cl' Cl) in *. cbn [app] in S. unfold dense_operator, make_axes. cbn [rbind ashape data]. rewrite S, app_length. replace (length sn + length sm + 0) with (length sm + length sn) by lia. rewrite Nat.eqb_refl. cbn [rbind].
      eexists. split; [reflexivity|]. split; [|split; reflexivity]. unfold blocks. cbn. repeat (split; [assumption || reflexivity|]). reflexivity.
    - destruct (block_diagonal_ok data sl sm sn Leftward S Lm Ln) as (op' & Eo & B' & Ed & Eb' & _). exists op'. split; [exact Eo|]. split; [exact B'|]. split; [exact Eb'|]. rewrite Ed. reflexivity. }
  destruct (call_ok op' sl sm sn x p q r B') as (z & Ez & Iz); auto. { rewrite Eb'. rewrite Eb in Q. exact Q. }
  exists op', z. split; [exact Eo|]. split; [exact Ez|]. destruct Im as (_ & Sy & V), Iz as (_ & Sz & W). split; [congruence|]. intros idx Hi. rewrite Sy in Hi.
  apply inside_app_split in Hi. destruct Hi as (ir & i' & -> & Hr & Hi & _). apply inside_app_split in Hi. destruct Hi as (im & iq & -> & Hm & Hq & _). rewrite V, W by assumption.
  rewrite (rmul_comm c), lsum_mul_r, map_map. apply lsum_ext. intros jn _. rewrite Hd. ring.
Qed.
End Dense.
