(** Block operators, as relations: products, sums, element-wise products. *)
From Verif Require Import Base Algebra EngineModel EngineSpec RuleModel CalcModel CalcSpec.

Section Blocks.
Context {K : cring}.
Add Ring Kring : (rth K).
Notation vec := (list K).
Notation rel := (vec -> vec -> Prop).
Local Open Scope cr_scope.

Definition implies (r r' : rel) : Prop := forall x y, r x y -> r' x y.
Definition comp_rel (r1 r2 : rel) : rel := fun x y => exists z, r2 x z /\ r1 z y.
Definition comb_rel (f : K -> K -> K) (r1 r2 : rel) : rel := fun x y => exists a b, r1 x a /\ r2 x b /\ length a = length b /\ y = zip f a b.
Definition pairs (f : rel -> rel -> rel) (rs1 rs2 : list rel) : list rel := map (fun p => f (fst p) (snd p)) (combine rs1 rs2).

Lemma app_same {A} (a b c d : list A) : length a = length c -> a ++ b = c ++ d -> a = c /\ b = d.
Proof.
  revert c. induction a as [|x a IH]; intros [|y c] L E; simpl in *; try discriminate; [auto|].
  injection E as -> E. destruct (IH c ltac:(lia) E) as [-> ->]. auto.
Qed.
Lemma zip_app f (a b c d : vec) : length a = length c -> zip f (a ++ b) (c ++ d) = zip f a c ++ zip f b d.
Proof.
  unfold zip. revert c. induction a as [|x a IH]; intros [|y c] L; simpl in *; try discriminate; [reflexivity|]. rewrite IH by lia. reflexivity.
Qed.
Lemma zip_len f (a b : vec) : length a = length b -> length (zip f a b) = length b.
Proof. intros L. unfold zip. rewrite map_length, combine_length. lia. Qed.

(** ** Lengths *)
Lemma diag_lengths (rs : list rel) : forall pi po x y, diag_rel rs pi po x y -> length x = list_sum pi /\ length y = list_sum po /\ length pi = length rs /\ length po = length rs.
Proof.
  induction rs as [|r rs IH]; intros [|n pi] [|m po] x y; simpl; try tauto.
  - intros [-> ->]. auto.
  - intros [x1 [x2 [y1 [y2 [-> [-> [<- [<- [_ H]]]]]]]]]. apply IH in H. rewrite !app_length. unfold list_sum in *. lia.
Qed.
Lemma col_lengths (rs : list rel) : forall po x y, col_rel rs po x y -> length y = list_sum po /\ length po = length rs.
Proof.
  induction rs as [|r rs IH]; intros [|m po] x y; simpl; try tauto.
  - intros ->. auto.
  - intros [y1 [y2 [-> [<- [_ H]]]]]. apply IH in H. rewrite !app_length. unfold list_sum in *. lia.
Qed.
Lemma row_rel_cons (r r' : rel) rs n n' pi x y : row_rel (r :: r' :: rs) (n :: n' :: pi) x y <->
  exists x1 x2 a b, x = x1 ++ x2 /\ length x1 = n /\ r x1 a /\ row_rel (r' :: rs) (n' :: pi) x2 b /\ plus a b y.
Proof. reflexivity. Qed.
Lemma row_lengths (rs : list rel) : forall pi x y, row_rel rs pi x y -> length x = list_sum pi /\ length pi = length rs.
Proof.
  induction rs as [|r [|r' rs] IH]; intros [|n [|n' pi]] x y; simpl row_rel; try tauto.
  - intros [<- _]. simpl. lia.
  - intros [x1 [x2 [a [b [_ [_ [_ [[] _]]]]]]]].
  - intros [x1 [x2 [a [b [_ [_ [_ [H _]]]]]]]]. destruct rs; destruct H.
  - intros [x1 [x2 [a [b [-> [<- [_ [H _]]]]]]]]. apply (IH (n' :: pi)) in H. rewrite app_length. simpl in *. lia.
Qed.

(** ** Monotony *)
Lemma diag_mono (rs rs' : list rel) : Forall2 implies rs rs' -> forall pi po x y, diag_rel rs pi po x y -> diag_rel rs' pi po x y.
Proof.
  induction 1 as [|r r' rs rs' H F IH]; intros [|n pi] [|m po] x y; simpl; try tauto.
  intros [x1 [x2 [y1 [y2 [-> [-> [L1 [L2 [Hr Hd]]]]]]]]]. exists x1, x2, y1, y2. repeat (split; [solve [auto]|]). auto.
Qed.
Lemma col_mono (rs rs' : list rel) : Forall2 implies rs rs' -> forall po x y, col_rel rs po x y -> col_rel rs' po x y.
Proof.
  induction 1 as [|r r' rs rs' H F IH]; intros [|m po] x y; simpl; try tauto.
  intros [y1 [y2 [-> [L2 [Hr Hd]]]]]. exists y1, y2. repeat (split; [solve [auto]|]). auto.
Qed.
Lemma row_mono (rs rs' : list rel) : Forall2 implies rs rs' -> forall pi x y, row_rel rs pi x y -> row_rel rs' pi x y.
Proof.
  induction 1 as [|r r' rs rs' H F IH]; intros [|m pi] x y; try (simpl; tauto).
  { destruct rs; simpl; tauto. }
  inversion F as [|s s' ss ss' Hs Fs]; subst.
  - destruct pi as [|m' pi]; simpl; [intros [L Hr]; auto|]. intros [x1 [x2 [a [b [_ [_ [_ [[] _]]]]]]]].
  - destruct pi as [|m' pi].
    + intros [x1 [x2 [a [b [_ [_ [_ [Q _]]]]]]]]. apply row_lengths in Q. destruct Q as [_ Q]. discriminate Q.
    + rewrite !row_rel_cons. intros [x1 [x2 [a [b [-> [L1 [Hr [Hd P]]]]]]]]. exists x1, x2, a, b. repeat (split; [solve [auto]|]). auto.
Qed.
Lemma block_mono pi po (rs rs' : list rel) : Forall2 implies rs rs' -> implies (block_rel pi po rs) (block_rel pi po rs').
Proof. intros F x y. destruct pi, po; simpl; eauto using diag_mono, col_mono, row_mono. Qed.

(** ** Products *)
Lemma diag_diag (rs1 : list rel) : forall (rs2 : list rel) pi p po x z y, diag_rel rs2 pi p x z -> diag_rel rs1 p po z y -> diag_rel (pairs comp_rel rs1 rs2) pi po x y.
Proof.
  induction rs1 as [|r1 rs1 IH]; intros [|r2 rs2] [|n pi] [|k p] [|m po] x z y; simpl; try tauto.
  intros [x1 [x2 [z1 [z2 [-> [-> [Lx [Lz [H2 D2]]]]]]]]] [z1' [z2' [y1 [y2 [E [-> [Lz' [Ly [H1 D1]]]]]]]]].
  apply app_same in E; [|lia]. destruct E as [-> ->]. exists x1, x2, y1, y2. repeat (split; [solve [auto]|]). split; [exists z1'; auto|]. eapply IH; eauto.
Qed.
Lemma diag_col (rs1 : list rel) : forall (rs2 : list rel) p po x z y, col_rel rs2 p x z -> diag_rel rs1 p po z y -> col_rel (pairs comp_rel rs1 rs2) po x y.
Proof.
  induction rs1 as [|r1 rs1 IH]; intros [|r2 rs2] [|k p] [|m po] x z y; simpl; try tauto.
  intros [z1 [z2 [-> [Lz [H2 D2]]]]] [z1' [z2' [y1 [y2 [E [-> [Lz' [Ly [H1 D1]]]]]]]]].
  apply app_same in E; [|lia]. destruct E as [-> ->]. exists y1, y2. repeat (split; [solve [auto]|]). split; [exists z1'; auto|]. eapply IH; eauto.
Qed.
Lemma row_diag (rs1 : list rel) : forall (rs2 : list rel) pi p x z y, diag_rel rs2 pi p x z -> row_rel rs1 p z y -> row_rel (pairs comp_rel rs1 rs2) pi x y.
Proof.
  induction rs1 as [|r1 rs1 IH]; intros rs2 pi p x z y D R; [destruct p; destruct R|].
  pose proof (row_lengths _ _ _ _ R) as [_ L1]. pose proof (diag_lengths _ _ _ _ _ D) as [_ [_ [L2 L3]]].
  destruct p as [|k p]; [discriminate|]. destruct rs2 as [|r2 rs2]; [discriminate|]. destruct pi as [|n pi]; [discriminate|].
  destruct D as [x1 [x2 [z1 [z2 [-> [-> [Lx [Lz [H2 D2]]]]]]]]].
  destruct rs1 as [|r1' rs1].
  - destruct p as [|k' p]; [|discriminate]. destruct rs2 as [|]; [|discriminate]. destruct pi; [|discriminate]. simpl in *. destruct D2 as [-> ->].
    destruct R as [L R]. rewrite !app_nil_r in *. split; [exact Lx|]. exists z1. auto.
  - destruct p as [|k' p]; [discriminate|]. destruct rs2 as [|r2' rs2]; [discriminate|]. destruct pi as [|n' pi]; [discriminate|].
    rewrite row_rel_cons in R. destruct R as [z1' [z2' [a [b [E [Lz' [H1 [R P]]]]]]]]. apply app_same in E; [|lia]. destruct E as [-> ->].
    change (pairs comp_rel (r1 :: r1' :: rs1) (r2 :: r2' :: rs2)) with (comp_rel r1 r2 :: comp_rel r1' r2' :: pairs comp_rel rs1 rs2).
    rewrite row_rel_cons. exists x1, x2, a, b. repeat (split; [solve [auto]|]). split; [exists z1'; auto|]. split; [|exact P]. eapply (IH (r2' :: rs2)); eauto.
Qed.
(** A block row times a block column: the sum of the products. *)
Fixpoint sum_rel (rs : list rel) (x y : vec) : Prop :=
  match rs with
  | [] => False
  | [r] => r x y
  | r :: rs => exists a b, r x a /\ sum_rel rs x b /\ plus a b y
  end.
Lemma row_col (rs1 : list rel) : forall (rs2 : list rel) p x z y, col_rel rs2 p x z -> row_rel rs1 p z y -> sum_rel (pairs comp_rel rs1 rs2) x y.
Proof.
  induction rs1 as [|r1 rs1 IH]; intros rs2 p x z y D R; [destruct p; destruct R|].
  pose proof (row_lengths _ _ _ _ R) as [_ L1]. pose proof (col_lengths _ _ _ _ D) as [_ L3].
  destruct p as [|k p]; [discriminate|]. destruct rs2 as [|r2 rs2]; [discriminate|].
  destruct D as [z1 [z2 [-> [Lz [H2 D2]]]]].
  destruct rs1 as [|r1' rs1].
  - destruct p as [|k' p]; [|discriminate]. destruct rs2 as [|]; [|discriminate]. simpl in *. subst z2.
    destruct R as [L R]. rewrite !app_nil_r in *. exists z1. auto.
  - destruct p as [|k' p]; [discriminate|]. destruct rs2 as [|r2' rs2]; [discriminate|].
    rewrite row_rel_cons in R. destruct R as [z1' [z2' [a [b [E [Lz' [H1 [R P]]]]]]]]. apply app_same in E; [|lia]. destruct E as [-> ->].
    exists a, b. split; [exists z1'; auto|]. split; [|exact P]. eapply (IH (r2' :: rs2)); eauto.
Qed.

(** ** Sums and element-wise products *)
Lemma diag_comb f (rs1 : list rel) : forall (rs2 : list rel) pi po x a b, diag_rel rs1 pi po x a -> diag_rel rs2 pi po x b -> diag_rel (pairs (comb_rel f) rs1 rs2) pi po x (zip f a b).
Proof.
  induction rs1 as [|r1 rs1 IH]; intros [|r2 rs2] [|n pi] [|m po] x a b; simpl; try tauto.
  - intros [-> ->] [_ ->]. auto.
  - intros [x1 [x2 [a1 [a2 [-> [-> [Lx [La [H1 D1]]]]]]]]] [x1' [x2' [b1 [b2 [E [-> [Lx' [Lb [H2 D2]]]]]]]]].
    apply app_same in E; [|lia]. destruct E as [-> ->]. exists x1', x2', (zip f a1 b1), (zip f a2 b2). split; [reflexivity|]. split; [apply zip_app; lia|].
    split; [exact Lx|]. split; [rewrite zip_len; lia|]. split; [exists a1, b1; repeat (split; [solve [auto|lia]|]); reflexivity|]. apply IH; assumption.
Qed.
Lemma col_comb f (rs1 : list rel) : forall (rs2 : list rel) po x a b, col_rel rs1 po x a -> col_rel rs2 po x b -> col_rel (pairs (comb_rel f) rs1 rs2) po x (zip f a b).
Proof.
  induction rs1 as [|r1 rs1 IH]; intros [|r2 rs2] [|m po] x a b; simpl; try tauto.
  - intros -> ->. auto.
  - intros [a1 [a2 [-> [La [H1 D1]]]]] [b1 [b2 [-> [Lb [H2 D2]]]]]. exists (zip f a1 b1), (zip f a2 b2). split; [apply zip_app; lia|].
    split; [rewrite zip_len; lia|]. split; [exists a1, b1; repeat (split; [solve [auto|lia]|]); reflexivity|]. apply IH; assumption.
Qed.
Lemma zip_exchange (a b c d : vec) : zip radd (zip radd a b) (zip radd c d) = zip radd (zip radd a c) (zip radd b d).
Proof.
  unfold zip. revert b c d. induction a as [|u a IH]; intros [|v b] [|w c] [|t d]; simpl; try reflexivity. rewrite IH. f_equal. ring.
Qed.
Lemma row_plus (rs1 : list rel) : forall (rs2 : list rel) pi x a b, row_rel rs1 pi x a -> row_rel rs2 pi x b -> length a = length b -> row_rel (pairs (comb_rel radd) rs1 rs2) pi x (zip radd a b).
Proof.
  induction rs1 as [|r1 rs1 IH]; intros rs2 pi x a b R1 R2 L; [destruct pi; destruct R1|].
  pose proof (row_lengths _ _ _ _ R1) as [_ L1]. pose proof (row_lengths _ _ _ _ R2) as [_ L2].
  destruct pi as [|n pi]; [discriminate|]. destruct rs2 as [|r2 rs2]; [discriminate|]. destruct rs1 as [|r1' rs1].
  - destruct pi as [|]; [|discriminate]. destruct rs2; [|discriminate]. destruct R1 as [Lx R1]. destruct R2 as [_ R2]. split; [exact Lx|].
    exists a, b. auto.
  - destruct pi as [|n' pi]; [discriminate|]. destruct rs2 as [|r2' rs2]; [discriminate|].
    rewrite row_rel_cons in R1, R2. destruct R1 as [x1 [x2 [a1 [a2 [-> [Lx [H1 [R1 [La ->]]]]]]]]]. destruct R2 as [x1' [x2' [b1 [b2 [E [Lx' [H2 [R2 [Lb ->]]]]]]]]].
    apply app_same in E; [|lia]. destruct E as [-> ->]. rewrite !zip_len in L by assumption.
    change (pairs (comb_rel radd) (r1 :: r1' :: rs1) (r2 :: r2' :: rs2)) with (comb_rel radd r1 r2 :: comb_rel radd r1' r2' :: pairs (comb_rel radd) rs1 rs2).
    rewrite row_rel_cons. exists x1', x2', (zip radd a1 b1), (zip radd a2 b2). split; [reflexivity|]. split; [exact Lx|].
    split; [exists a1, b1; repeat (split; [solve [auto|lia]|]); reflexivity|]. split; [|split; [rewrite !zip_len by lia; lia|apply zip_exchange]].
    apply (IH (r2' :: rs2)); auto.
Qed.

(** ** Operators that act on each piece *)
Lemma piecewise_diag (r : rel) : piecewise r -> forall p x y, r x y -> length x = list_sum p -> diag_rel (repeat r (length p)) p p x y.
Proof.
  intros Hp. induction p as [|n p IH]; intros x y R L; destruct (Hp x y R) as [Ly H].
  - simpl in L. rewrite L in Ly. split; apply length_zero_iff_nil; assumption.
  - destruct (H (firstn n x) (skipn n x)) as [y1 [y2 [-> [R1 [R2 L1]]]]]; [symmetry; apply firstn_skipn|].
    simpl in L. exists (firstn n x), (skipn n x), y1, y2. rewrite firstn_length in *. split; [symmetry; apply firstn_skipn|]. split; [reflexivity|].
    split; [lia|]. split; [lia|]. split; [exact R1|]. apply IH; [exact R2|rewrite skipn_length; unfold list_sum in *; simpl in *; lia].
Qed.
(** Data cut into pieces *)
Lemma pieces_diag {A} (r : list A -> rel) : (forall d x y, r d x y -> length d = length x /\ length y = length x) ->
  (forall d1 d2 x1 x2 y, length d1 = length x1 -> r (d1 ++ d2) (x1 ++ x2) y -> exists y1 y2, y = y1 ++ y2 /\ r d1 x1 y1 /\ r d2 x2 y2) ->
  forall p d x y, r d x y -> length x = list_sum p -> diag_rel (map r (pieces p d)) p p x y.
Proof.
  intros Hl Hs. induction p as [|n p IH]; intros d x y R L.
  - destruct (Hl _ _ _ R) as [_ Ly]. simpl in *. destruct x, y; try discriminate. auto.
  - destruct (Hl _ _ _ R) as [Ld Ly]. simpl in L. cbn [pieces map diag_rel].
    rewrite <- (firstn_skipn n d), <- (firstn_skipn n x) in R. apply Hs in R; [|rewrite !firstn_length; lia]. destruct R as [y1 [y2 [-> [R1 R2]]]].
    destruct (Hl _ _ _ R1) as [_ L1]. rewrite firstn_length in L1. exists (firstn n x), (skipn n x), y1, y2. split; [symmetry; apply firstn_skipn|]. split; [reflexivity|].
    rewrite firstn_length. split; [lia|]. split; [lia|]. split; [exact R1|]. apply IH; [exact R2|]. rewrite skipn_length. unfold list_sum in *. lia.
Qed.
(** Constant outputs cut into pieces *)
Lemma pieces_concat {A} (p : list nat) : forall (d : list A), length d = list_sum p -> concat (pieces p d) = d /\ map (@length A) (pieces p d) = p.
Proof.
  induction p as [|n p IH]; intros d L; simpl in *; [destruct d; [auto|discriminate]|].
  destruct (IH (skipn n d)) as [H1 H2]; [rewrite skipn_length; unfold list_sum in *; lia|]. rewrite H1, H2, firstn_skipn, firstn_length. split; [reflexivity|]. f_equal. lia.
Qed.
Lemma fill_col (rs : list rel) (ys : list vec) x : Forall2 (fun (r : rel) y => forall x, r x y) rs ys -> col_rel rs (map (@length K) ys) x (concat ys).
Proof. induction 1 as [|r y rs ys H F IH]; simpl; [reflexivity|]. exists y, (concat ys). auto. Qed.
Lemma fill_diag (rs : list rel) (ys : list vec) : Forall2 (fun (r : rel) y => forall x, r x y) rs ys -> forall pi x, length pi = length rs -> length x = list_sum pi ->
  diag_rel rs pi (map (@length K) ys) x (concat ys).
Proof.
  induction 1 as [|r y rs ys H F IH]; intros [|n pi] x L Lx; try discriminate; simpl in *.
  - destruct x; [auto|discriminate].
  - exists (firstn n x), (skipn n x), y, (concat ys). split; [symmetry; apply firstn_skipn|]. split; [reflexivity|]. rewrite firstn_length. split; [lia|]. split; [reflexivity|].
    split; [apply H|]. apply IH; [lia|]. rewrite skipn_length. unfold list_sum in *. lia.
Qed.
(** A single block *)
Lemma block_single pi po (r : rel) x y : block_rel pi po [r] x y -> r x y.
Proof.
  destruct pi as [[|n [|n' pi]]|], po as [[|m [|m' po]]|]; simpl; try tauto.
  - intros [x1 [x2 [y1 [y2 [-> [-> [_ [_ [H [-> ->]]]]]]]]]]. rewrite !app_nil_r. exact H.
  - intros [x1 [x2 [y1 [y2 [_ [_ [_ [_ [_ []]]]]]]]]].
  - intros [x1 [x2 [y1 [y2 [_ [_ [_ [_ [_ []]]]]]]]]].
  - intros [x1 [x2 [y1 [y2 [_ [_ [_ [_ [_ []]]]]]]]]].
  - intros [x1 [x2 [a [b [_ [_ [_ [[] _]]]]]]]].
  - intros [y1 [y2 [-> [_ [H ->]]]]]. rewrite app_nil_r. exact H.
  - intros [y1 [y2 [_ [_ [_ []]]]]].
Qed.

(** ** Scalars *)
Notation scal := (fun (k : K) => map (rmul k)).
Lemma map_app_inv {A B} (f : A -> B) (l : list A) (a b : list B) : map f l = a ++ b -> exists l1 l2, l = l1 ++ l2 /\ map f l1 = a /\ map f l2 = b.
Proof. intros H. apply map_eq_app in H. exact H. Qed.
Lemma diag_homogeneous (rs : list rel) : Forall (homogeneous scal) rs -> forall pi po, homogeneous scal (diag_rel rs pi po).
Proof.
  induction 1 as [|r rs Hr F IH]; intros [|n pi] [|m po] k x y; simpl.
  all: try (split; [tauto|intros [y' [Q _]]; tauto]).
  - split.
    + intros [E ->]. exists []. destruct x; [auto|discriminate].
    + intros [y' [[-> ->] ->]]. auto.
  - split.
    + intros [x1 [x2 [y1 [y2 [E [-> [L1 [L2 [H D]]]]]]]]]. apply map_app_inv in E. destruct E as [u1 [u2 [-> [<- <-]]]].
      apply Hr in H. destruct H as [v1 [H ->]]. apply IH in D. destruct D as [v2 [D ->]]. rewrite map_length in *.
      exists (v1 ++ v2). split; [|rewrite map_app; reflexivity]. exists u1, u2, v1, v2. auto 10.
    + intros [y' [[x1 [x2 [y1 [y2 [-> [-> [L1 [L2 [H D]]]]]]]]] ->]]. exists (map (rmul k) x1), (map (rmul k) x2), (map (rmul k) y1), (map (rmul k) y2).
      rewrite !map_app, !map_length. repeat (split; [solve [auto]|]). split; [apply Hr; eauto|apply IH; eauto].
Qed.
Lemma col_homogeneous (rs : list rel) : Forall (homogeneous scal) rs -> forall po, homogeneous scal (col_rel rs po).
Proof.
  induction 1 as [|r rs Hr F IH]; intros [|m po] k x y; simpl.
  all: try (split; [tauto|intros [y' [Q _]]; tauto]).
  - split; [intros ->; exists []; auto|intros [y' [-> ->]]; auto].
  - split.
    + intros [y1 [y2 [-> [L2 [H D]]]]]. apply Hr in H. destruct H as [v1 [H ->]]. apply IH in D. destruct D as [v2 [D ->]]. rewrite map_length in *.
      exists (v1 ++ v2). split; [|rewrite map_app; reflexivity]. exists v1, v2. auto 10.
    + intros [y' [[y1 [y2 [-> [L2 [H D]]]]] ->]]. exists (map (rmul k) y1), (map (rmul k) y2).
      rewrite !map_app, !map_length. repeat (split; [solve [auto]|]). split; [apply Hr; eauto|apply IH; eauto].
Qed.
Lemma zip_scal k (u v : vec) : zip radd (map (rmul k) u) (map (rmul k) v) = map (rmul k) (zip radd u v).
Proof. unfold zip. revert v. induction u as [|a u IH]; intros [|b v]; simpl; try reflexivity. rewrite IH. f_equal. ring. Qed.
Lemma row_homogeneous (rs : list rel) : Forall (homogeneous scal) rs -> forall pi, homogeneous scal (row_rel rs pi).
Proof.
  induction 1 as [|r rs Hr F IH]; intros pi k x y.
  - destruct pi; (split; [intros []|intros [y' [[] _]]]).
  - assert (N : forall x y, row_rel (r :: rs) pi x y -> length pi = S (length rs)) by (intros u v Q; apply row_lengths in Q; apply Q).
    split; [intros Q; specialize (N _ _ Q)|intros [y' [Q Q']]; specialize (N _ _ Q)]; (destruct pi as [|n pi]; [discriminate|]);
      (destruct rs as [|r' rs]; [destruct pi; [|discriminate]|destruct pi as [|n' pi]; [discriminate|]]).
    + destruct Q as [L Q]. rewrite map_length in L. apply Hr in Q. destruct Q as [y' [Q ->]]. exists y'. split; [split; auto|reflexivity].
    + rewrite row_rel_cons in Q. destruct Q as [x1 [x2 [a [b [E [L1 [H [D [L ->]]]]]]]]]. apply map_app_inv in E. destruct E as [u1 [u2 [-> [<- <-]]]].
      apply Hr in H. destruct H as [a' [H ->]]. apply IH in D. destruct D as [b' [D ->]]. rewrite !map_length in *. exists (zip radd a' b'). split; [|apply zip_scal].
      rewrite row_rel_cons. exists u1, u2, a', b'. unfold plus. auto 10.
    + subst y. destruct Q as [L Q]. split; [rewrite map_length; exact L|]. apply Hr. eauto.
    + subst y. rewrite row_rel_cons in Q. destruct Q as [x1 [x2 [a [b [-> [L1 [H [D [L ->]]]]]]]]]. rewrite row_rel_cons.
      exists (map (rmul k) x1), (map (rmul k) x2), (map (rmul k) a), (map (rmul k) b). rewrite map_app, !map_length. repeat (split; [solve [auto]|]).
      split; [apply Hr; eauto|]. split; [apply IH; eauto|]. split; [rewrite !map_length; exact L|symmetry; apply zip_scal].
Qed.
Lemma block_homogeneous pi po (rs : list rel) : Forall (homogeneous scal) rs -> homogeneous scal (block_rel pi po rs).
Proof.
  intros F. destruct pi as [pi|], po as [po|].
  - exact (diag_homogeneous _ F pi po).
  - exact (row_homogeneous _ F pi).
  - exact (col_homogeneous _ F po).
  - intros k x y. split; [intros []|intros [y' [[] _]]].
Qed.
End Blocks.
