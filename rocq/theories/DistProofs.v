(** Proofs for C53. *)
From Verif Require Import Base Algebra SeqModel BlockModel BlockSpec BlockProofs BlockRules DiagModel DiagRulesModel DiagSpec DiagProofs DiagRules DistModel DistSpec.
Notation bfits := BlockProofs.fits.
Notation dfits := DiagSpec.fits.
Notation dproper := DiagSpec.proper.

(** ** Dimensions and indices *)
Lemma stretches_app du u dv v : length du = length u -> stretches (du ++ dv) (u ++ v) <-> stretches du u /\ stretches dv v.
Proof. revert u. induction du as [|x du IH]; intros [|y u] H; cbn in *; try discriminate; [tauto|]. rewrite (IH u) by lia. tauto. Qed.
Lemma stretches_prefix d u v : length d <= length u -> stretches d (u ++ v) <-> stretches d u.
Proof. revert u. induction d as [|x d IH]; intros [|y u] H; cbn in *; try tauto; [lia|]. rewrite IH by lia. tauto. Qed.
Lemma project_app du i dv l : length du = length i -> project (du ++ dv) (i ++ l) = project du i ++ project dv l.
Proof. revert i. induction du as [|x du IH]; intros [|y i] H; cbn in *; try discriminate; auto. rewrite IH by lia. reflexivity. Qed.
Lemma project_length d idx : length d <= length idx -> length (project d idx) = length d.
Proof. revert idx. induction d as [|x d IH]; intros [|y idx] H; cbn in *; auto; [lia|]. rewrite IH; lia. Qed.
Lemma stretches_inside d s idx : stretches d s -> inside s idx -> inside d (project d idx).
Proof.
  intros H I. revert d H. induction I as [|n i s idx L I IH]; intros [|m d] H; cbn in *; try constructor; try tauto.
  - destruct (Nat.eqb_spec m 1); lia.
  - apply IH. tauto.
Qed.
Lemma glob_axis z i j l lo : glob (Axis z) (length i) lo (i ++ j :: l) = i ++ (lo + j) :: l.
Proof. cbn. rewrite set_nth_app, nth_app_at. reflexivity. Qed.
Lemma glob_new z i l lo : glob (NewAxis z) (length i) lo (i ++ l) = i ++ lo :: l.
Proof. cbn. apply insert_app. Qed.
Lemma pshape_axis z u x v n : pshape (Axis z) (length u) n (u ++ x :: v) = u ++ n :: v.
Proof. cbn. apply set_nth_app. Qed.
Lemma pshape_new z u x v n : pshape (NewAxis z) (length u) n (u ++ x :: v) = u ++ v.
Proof. cbn. apply remove_at_app. Qed.
Lemma rev_pshape ax a n s : a < length s -> rev (pshape ax a n s) = pshape ax (length s - 1 - a) n (rev s).
Proof.
  intros Ha. destruct (at_split s a Ha) as (u & x & v & -> & <-).
  replace (length (u ++ x :: v) - 1 - length u) with (length (rev v)) by (rewrite rev_length, app_length; cbn; lia).
  rewrite rev_app_distr. cbn [rev]. rewrite <- app_assoc. cbn [app]. destruct ax.
  - rewrite !pshape_axis, rev_app_distr. cbn [rev]. rewrite <- app_assoc. reflexivity.
  - rewrite !pshape_new, rev_app_distr. reflexivity.
Qed.
Definition full (ax : axis) (idx : list nat) : nat := match ax with Axis _ => length idx | NewAxis _ => S (length idx) end.
Lemma rev_glob ax a lo idx : a < full ax idx -> rev (glob ax a lo idx) = glob ax (full ax idx - 1 - a) lo (rev idx).
Proof.
  intros Ha. destruct ax; cbn [full] in *.
  - destruct (at_split idx a Ha) as (i & j & l & -> & <-).
    replace (length (i ++ j :: l) - 1 - length i) with (length (rev l)) by (rewrite rev_length, app_length; cbn; lia).
    rewrite glob_axis, !rev_app_distr. cbn [rev]. rewrite <- !app_assoc. cbn [app]. rewrite glob_axis. reflexivity.
  - rewrite <- (firstn_skipn a idx) at 1 3. assert (L : length (firstn a idx) = a) by (rewrite firstn_length; lia).
    assert (L2 : length (rev (skipn a idx)) = S (length idx) - 1 - a) by (rewrite rev_length, skipn_length; lia).
    rewrite <- L2. rewrite <- L at 1. rewrite glob_new, !rev_app_distr. cbn [rev]. rewrite glob_new, <- app_assoc. reflexivity.
Qed.
Lemma full_pshape ax a n s idx : a < length s -> length idx = length (pshape ax a n s) -> full ax idx = length s.
Proof.
  intros Ha. destruct (at_split s a Ha) as (u & x & v & -> & <-). destruct ax.
  - rewrite pshape_axis. cbn. intros ->. rewrite !app_length. reflexivity.
  - rewrite pshape_new. cbn. intros ->. rewrite !app_length. cbn. lia.
Qed.
Lemma inside_rev' s idx : inside (rev s) (rev idx) -> inside s idx.
Proof. intros H. apply inside_rev in H. rewrite !rev_involutive in H. exact H. Qed.
Lemma nth_rev' (l : list nat) a : a < length l -> nth (length l - 1 - a) (rev l) 0 = nth a l 0.
Proof. intros H. rewrite rev_nth by lia. f_equal. lia. Qed.

(** Cutting the data and the array at facing dimensions. *)
Lemma oriented ax a lo n d s : stretches d s -> a < length d -> nth a d 0 = nth a s 0 -> bfits ax lo n (nth a s 0) ->
  stretches (pshape ax a n d) (pshape ax a n s) /\
  forall idx, inside (pshape ax a n s) idx -> glob ax a lo (project (pshape ax a n d) idx) = project d (glob ax a lo idx).
Proof.
  intros H Ha E F. assert (Hs : a < length s) by (apply stretches_length in H; lia).
  destruct (at_split s a Hs) as (u & N & v & -> & Hu). subst a. destruct (at_split d (length u) Ha) as (du & dn & dv & -> & Hd).
  rewrite nth_app_at in E, F. rewrite <- Hd, nth_app_at in E. subst dn.
  apply stretches_app in H as [H1 [_ H2]]; [|congruence]. destruct ax; cbn [bfits] in F.
  - assert (P : pshape (Axis a) (length u) n (du ++ N :: dv) = du ++ n :: dv) by (rewrite <- Hd; apply pshape_axis).
    rewrite P, pshape_axis. split.
    + apply stretches_app; [congruence|]. split; auto. split; auto.
    + intros idx I. apply inside_split in I as (i & j & l & -> & I1 & I2 & I3 & I4). rewrite <- I4. rewrite glob_axis.
      rewrite !project_app by congruence. cbn [project].
      replace (length i) with (length (project du i)) by (rewrite project_length; lia). rewrite glob_axis. do 2 f_equal.
      destruct (Nat.eqb_spec n 1), (Nat.eqb_spec N 1); lia.
  - assert (P : pshape (NewAxis a) (length u) n (du ++ N :: dv) = du ++ dv) by (rewrite <- Hd; apply pshape_new).
    rewrite P, pshape_new. split.
    + apply stretches_app; [congruence|]. split; auto.
    + intros idx I. apply inside_app_split in I as (i & l & -> & I1 & I2 & I4). rewrite <- I4. rewrite glob_new.
      rewrite !project_app by congruence. cbn [project].
      replace (length i) with (length (project du i)) by (rewrite project_length; lia). rewrite glob_new. do 2 f_equal.
      destruct (Nat.eqb_spec N 1); lia.
Qed.
(** Cutting the array beyond the dimensions of the data. *)
Lemma beyond ax a lo n d s : stretches d s -> length d <= a -> a < length s ->
  stretches d (pshape ax a n s) /\ forall idx, inside (pshape ax a n s) idx -> project d idx = project d (glob ax a lo idx).
Proof.
  intros H Hd Hs. destruct (at_split s a Hs) as (u & N & v & -> & Hu). apply stretches_prefix in H; [|lia]. rewrite <- Hu in Hd. destruct ax.
  - rewrite <- Hu. rewrite !pshape_axis. split; [apply stretches_prefix; auto|].
    intros idx I. apply inside_split in I as (i & j & l & -> & I1 & I2 & I3 & I4). rewrite <- I4, glob_axis, !project_prefix by lia. reflexivity.
  - rewrite <- Hu. rewrite !pshape_new. split; [apply stretches_prefix; auto|].
    intros idx I. apply inside_app_split in I as (i & l & -> & I1 & I2 & I4). rewrite <- I4, glob_new, !project_prefix by lia. reflexivity.
Qed.

(** ** The part of the data for a piece of the array *)
Section Data.
Context {A : Type}.
Implicit Types d e : array A.
Definition part_ok b d s ax a lo n e : Prop :=
  dfits b (ashape e) (pshape ax a n s) /\
  forall idx, inside (pshape ax a n s) idx -> coefficient b e idx = coefficient b d (glob ax a lo idx).

Lemma facing_inside b (d : list nat) s idx : dfits b d s -> inside s idx -> inside d (facing b d idx).
Proof.
  intros F I. destruct b; cbn [dfits facing] in *.
  - apply inside_rev'. rewrite rev_involutive. eapply stretches_inside; eauto using inside_rev.
  - eapply stretches_inside; eauto.
  - subst d. apply inside_rev'. rewrite rev_involutive. eapply stretches_inside; eauto using inside_rev. apply stretches_refl.
  - apply inside_rev'. rewrite rev_involutive. eapply stretches_inside; eauto using inside_rev.
Qed.
Lemma aeq_coefficient b d e s idx : aeq d e -> dfits b (ashape d) s -> inside s idx -> coefficient b d idx = coefficient b e idx.
Proof. intros [S E] F I. unfold coefficient. rewrite <- S. apply E. eapply facing_inside; eauto. Qed.
Lemma part_ok_aeq b d s ax a lo n e e' : aeq e e' -> part_ok b d s ax a lo n e' -> part_ok b d s ax a lo n e.
Proof.
  intros Q [F C]. destruct Q as [S E]. split; [rewrite S; auto|]. intros idx I. rewrite <- C by auto. apply aeq_coefficient with (s := pshape ax a n s); auto.
  - split; auto.
  - rewrite S; auto.
Qed.
Lemma fits_same b s : dfits b s s.
Proof. destruct b; cbn; auto using stretches_refl. Qed.
Lemma facing_same b s idx : inside s idx -> facing b s idx = idx.
Proof.
  intros I. destruct b; cbn; rewrite <- ?clip_project, ?clip_inside by auto using inside_rev; auto using rev_involutive.
Qed.

(** Left orientation: everything is read from the end. *)
Lemma left_cut b ax a lo n d s : b <> Rightward -> stretches (rev (ashape d)) (rev s) -> a < length s ->
  length s - 1 - a < length (ashape d) -> nth (length s - 1 - a) (rev (ashape d)) 0 = nth a s 0 -> bfits ax lo n (nth a s 0) ->
  (b = Disabled -> ashape d = s) ->
  part_ok b d s ax a lo n (cut ax (length (ashape d) - 1 - (length s - 1 - a)) lo n d).
Proof.
  intros NR H Ha L E F D. set (a' := length s - 1 - a) in *.
  rewrite <- (nth_rev' s a Ha) in E, F. fold a' in E, F.
  destruct (oriented ax a' lo n _ _ H ltac:(rewrite rev_length; lia) E F) as [O1 O2].
  assert (P1 : rev (pshape ax (length (ashape d) - 1 - a') n (ashape d)) = pshape ax a' n (rev (ashape d))).
  { rewrite rev_pshape by lia. f_equal. lia. }
  assert (P2 : rev (pshape ax a n s) = pshape ax a' n (rev s)) by (apply rev_pshape; auto).
  assert (FF : stretches (rev (pshape ax (length (ashape d) - 1 - a') n (ashape d))) (rev (pshape ax a n s))) by (rewrite P1, P2; auto).
  split.
  - rewrite cut_shape. destruct b; cbn [dfits]; auto; [congruence|]. rewrite (D eq_refl). f_equal. lia.
  - intros idx I. unfold coefficient. rewrite cut_shape, cut_val. f_equal.
    assert (L2 : forall w, length w = length (pshape ax a' n (rev (ashape d))) ->
       glob ax (length (ashape d) - 1 - a') lo (rev w) = rev (glob ax a' lo w)).
    { intros w W. assert (FW : full ax w = length (ashape d)).
      { rewrite (full_pshape ax a' n (rev (ashape d)) w); auto; rewrite rev_length; lia. }
      rewrite rev_glob by (rewrite FW; lia). rewrite FW. reflexivity. }
    assert (I' := inside_rev _ _ I). rewrite P2 in I'.
    assert (LI : full ax idx = length s) by (apply (full_pshape ax a n); auto; apply inside_length; auto).
    assert (RG : rev (glob ax a lo idx) = glob ax a' lo (rev idx)) by (rewrite rev_glob by (rewrite LI; lia); rewrite LI; reflexivity).
    destruct b; try congruence; cbn [facing]; rewrite RG, <- (O2 _ I'), P1; apply L2; apply project_length;
      rewrite (inside_length _ _ I'); apply stretches_length; exact O1.
Qed.
Lemma left_beyond b ax a lo n d s : b <> Rightward -> b <> Disabled -> stretches (rev (ashape d)) (rev s) -> a < length s ->
  length (ashape d) <= length s - 1 - a -> part_ok b d s ax a lo n d.
Proof.
  intros NR ND H Ha L. set (a' := length s - 1 - a) in *.
  destruct (beyond ax a' lo n _ _ H) as [O1 O2]; [rewrite rev_length; auto|rewrite rev_length; lia|].
  assert (P2 : rev (pshape ax a n s) = pshape ax a' n (rev s)) by (apply rev_pshape; auto).
  split.
  - destruct b; cbn [dfits]; try congruence; rewrite P2; auto.
  - intros idx I. unfold coefficient. f_equal. assert (I' := inside_rev _ _ I). rewrite P2 in I'.
    assert (LI : full ax idx = length s) by (apply (full_pshape ax a n); auto; apply inside_length; auto).
    assert (RG : rev (glob ax a lo idx) = glob ax a' lo (rev idx)) by (rewrite rev_glob by (rewrite LI; lia); rewrite LI; reflexivity).
    destruct b; try congruence; cbn [facing]; rewrite RG, <- (O2 _ I'); reflexivity.
Qed.
Lemma right_cut ax a lo n d s : stretches (ashape d) s -> a < length (ashape d) -> nth a (ashape d) 0 = nth a s 0 ->
  bfits ax lo n (nth a s 0) -> part_ok Rightward d s ax a lo n (cut ax a lo n d).
Proof.
  intros H L E F. destruct (oriented ax a lo n _ _ H L E F) as [O1 O2]. split; [rewrite cut_shape; exact O1|].
  intros idx I. unfold coefficient. rewrite cut_shape, cut_val. cbn [facing]. rewrite O2; auto.
Qed.
Lemma right_beyond ax a lo n d s : stretches (ashape d) s -> length (ashape d) <= a -> a < length s -> part_ok Rightward d s ax a lo n d.
Proof.
  intros H L Ha. destruct (beyond ax a lo n _ _ H L Ha) as [O1 O2]. split; [exact O1|].
  intros idx I. unfold coefficient. cbn [facing]. rewrite (O2 idx I). reflexivity.
Qed.

(** The stretched data: one coefficient for each element of the array. *)
Lemma spread_value b d s idx : aval (spread b d (Some s)) idx = coefficient b d idx.
Proof. unfold coefficient. destruct b; cbn; rewrite clip_project; reflexivity. Qed.
Definition same_kind (ax ax' : axis) : Prop := match ax, ax' with Axis _, Axis _ | NewAxis _, NewAxis _ => True | _, _ => False end.
Lemma spread_cut b d s ax ax' a lo n : same_kind ax ax' -> part_ok b d s ax a lo n (cut ax' a lo n (spread b d (Some s))).
Proof.
  intros Q. assert (PS : pshape ax' a n s = pshape ax a n s) by (destruct ax, ax'; cbn in *; tauto).
  assert (GS : forall idx, glob ax' a lo idx = glob ax a lo idx) by (destruct ax, ax'; cbn in *; tauto).
  split; [rewrite cut_shape; cbn [spread ashape]; rewrite PS; apply fits_same|].
  intros idx I. unfold coefficient at 1. rewrite cut_shape, cut_val, GS. cbn [spread ashape]. rewrite PS, facing_same by auto.
  exact (spread_value b d s _).
Qed.

Lemma sizes_known p ns ns' : sizes p ns -> known p = Ok ns' -> ns' = ns.
Proof.
  intros H. revert ns'. induction H as [|o n p ns Q H IH]; intros ns'; unfold known in *; cbn; [congruence|].
  destruct Q as [->| ->]; cbn; [|discriminate].
  destruct (rmap _ p) as [l|]; cbn; [|discriminate]. intros [= <-]. f_equal. auto.
Qed.
Lemma position_shift ax (s : list nat) a : (0 <= axis_value ax)%Z -> position ax (length s) = Some a -> position (shift ax (length s)) (length s) = Some a.
Proof.
  unfold position. intros N. destruct ax as [z|z]; cbn [shift axis_value] in *; cbv zeta;
  (destruct (Z.leb_spec 0 z); [|lia]; destruct (Z.ltb_spec z (Z.of_nat (length s))); cbn [andb]; [|destruct (0 <=? z)%Z; discriminate];
   destruct (Z.leb_spec 0 z); [|lia]; intros [= <-];
   destruct (Z.leb_spec 0 (z - Z.of_nat (length s))); [lia|];
   replace (z - Z.of_nat (length s) + Z.of_nat (length s))%Z with z by lia;
   destruct (Z.leb_spec 0 z); [|lia]; destruct (Z.ltb_spec z (Z.of_nat (length s))); [|lia]; reflexivity).
Qed.
End Data.

Section Rule.
Context {A : Type}.
Implicit Types d e : array A.
(** The rule, for all the pieces. *)
Lemma position_data b ax d s a : decide b (length (ashape d)) None ax = Slice ax -> b <> Scalar -> dfits b (ashape d) s -> position ax (length s) = Some a ->
  (is_right b = true -> a < length (ashape d) -> position ax (length (ashape d)) = Some a) /\
  (is_right b = true -> a <= length (ashape d)) /\
  (is_right b = false -> length s - 1 - a < length (ashape d) /\ position ax (length (ashape d)) = Some (length (ashape d) - 1 - (length s - 1 - a))).
Proof.
  intros D NS F P. set (m := length (ashape d)) in *.
  assert (L : m <= length s).
  { unfold m. destruct b; cbn [dfits] in F; try (apply stretches_length in F; rewrite ?rev_length in F; lia). rewrite F. lia. }
  assert (LT := position_lt _ _ _ P). unfold position in *. cbv zeta in *.
  set (z := axis_value ax) in *. unfold decide in D. fold z in D. cbv zeta in D.
  destruct b; cbn [is_left is_right is_disabled] in *; try congruence; (split; [|split]); try discriminate; intros _.
  all: repeat match goal with
    | H : context [if ?c then _ else _] |- _ => let E := fresh "E" in destruct c eqn:E; try discriminate H
    end.
  all: try (injection P as <-).
  all: rewrite ?Bool.andb_true_iff, ?Bool.andb_false_iff, ?Z.leb_le, ?Z.ltb_lt, ?Z.leb_gt, ?Z.ltb_ge in *.
  all: try lia.
  all: try (assert (m = length s) by (unfold m; cbn [dfits] in F; rewrite F; reflexivity)).
  all: try (match goal with |- _ /\ _ => split; [lia|] end); intros.
  all: match goal with |- (if ?c then _ else _) = _ => assert (c = true) as -> by (rewrite Bool.andb_true_iff, Z.leb_le, Z.ltb_lt; lia) end.
  all: f_equal; lia.
Qed.
Lemma getitem_beyond (d : array A) ax dest n : axis_value ax = Z.of_nat (length (ashape d)) -> getitem d (slice ax dest n) = Raise IndexError.
Proof.
  intros E. unfold getitem, expand, slice. rewrite E. unfold template, py_pos.
  destruct (Z.leb_spec 0 (Z.of_nat (length (ashape d)))); [|lia]. rewrite Nat2Z.id.
  cbn [repeat]. rewrite repeat_cons, <- app_assoc. cbn [app].
  replace (length (ashape d)) with (length (repeat All (length (ashape d)))) at 3 by apply repeat_length.
  rewrite set_nth_app, filter_app, app_length, filter_All, repeat_length. cbn [filter].
  assert (negb (is_ell (item ax dest n)) = true) as -> by (destruct ax; reflexivity). cbn [filter is_ell negb length].
  destruct (Nat.ltb_spec (length (ashape d)) (length (ashape d) + 1)); [reflexivity|lia].
Qed.
Lemma nth_error_nth0 (l : list nat) k n : nth_error l k = Some n -> nth k l 0 = n.
Proof. intros H. apply nth_error_nth with (d := 0) in H. exact H. Qed.
Lemma parts_read b d s ax p a ax' a' e l : partitioned ax p s a -> partitioned ax' p (ashape e) a' ->
  (forall lo n, bfits ax lo n (nth a s 0) -> part_ok b d s ax a lo n (cut ax' a' lo n e)) ->
  rmap (getitem e) (get_slices p ax') = Ok l ->
  length l = length p /\ forall k dflt, k < length p -> part_ok b d s ax a (offset p k) (nth k p 0) (nth k l dflt).
Proof.
  intros P P' H E. destruct (reads ax' a' p e P') as (ys & E' & L & Y). rewrite E in E'. injection E' as <-. split; auto.
  intros k dflt Hk. eapply part_ok_aeq; [apply Y; auto|]. apply H. eapply partitioned_fits; eauto.
Qed.
Lemma partitioned_data ax p s a s' a' : partitioned ax p s a -> position ax (length s') = Some a' -> nth a' s' 0 = nth a s 0 -> partitioned ax p s' a'.
Proof. intros [_ H] P E. split; auto. rewrite E. exact H. Qed.
Lemma partitioned_shift ax p s a : (0 <= axis_value ax)%Z -> partitioned ax p s a -> partitioned (shift ax (length s)) p s a.
Proof. intros N [P H]. split; [apply position_shift; auto|]. destruct ax; exact H. Qed.

Theorem rule_block_ok b d shape part s ax p a r : dproper b (ashape d) -> dfits b (ashape d) s -> partitioned ax p s a -> sizes part p ->
  ready shape b (ashape d) s ax a -> rule_block d b shape (Some part) (Some ax) = Ok r ->
  match r with
  | Nothing => True
  | Same => forall k, k < length p -> part_ok b d s ax a (offset p k) (nth k p 0) d
  | Parts l => length l = length p /\ forall k dflt, k < length p -> part_ok b d s ax a (offset p k) (nth k p 0) (nth k l dflt)
  end.
Proof.
  intros HP F P S R E. unfold rule_block in E. destruct (existsb is_unknown part && negb (is_scalar b)); [injection E as <-; exact I|].
  assert (LT := position_lt _ _ _ (proj1 P)).
  destruct (decide b (length (ashape d)) shape ax) as [| |ax'] eqn:D; [injection E as <-; exact I| |].
  - injection E as <-. intros k Hk. clear S. unfold decide in D. cbv zeta in D. destruct shape as [s'|].
    + destruct R as [-> N]. assert (PV := position_value _ _ _ (proj1 P)). destruct (Z.leb_spec 0 (axis_value ax)); [|lia].
      destruct b; try discriminate.
      * destruct (_ <? _)%Z eqn:Q; [|discriminate]. apply Z.ltb_lt in Q. apply left_beyond; auto; try discriminate. lia.
      * destruct (_ <? _)%Z eqn:Q; [|discriminate]. apply Z.ltb_lt in Q. apply right_beyond; auto. lia.
    + destruct R as [_ R]. assert (PV := position_value _ _ _ (proj1 P)). destruct b; try discriminate.
      * apply left_beyond; auto; try discriminate. cbn [is_right is_left] in D.
        destruct (is_new ax && (length (ashape d) =? 1) && ((axis_value ax =? -1)%Z && false || (axis_value ax =? 0)%Z && true)) eqn:Q.
        -- rewrite !Bool.andb_true_iff, Bool.orb_true_iff, !Bool.andb_true_iff in Q. destruct Q as [[Q1 Q2] [[_ Q3]|[Q3 _]]]; [discriminate|].
           apply Nat.eqb_eq in Q2. apply Z.eqb_eq in Q3. destruct ax; [discriminate|]. rewrite Q3 in PV. cbn [axis_value Z.leb Z.compare] in *. lia.
        -- destruct (_ <? _)%Z eqn:Q'; [|destruct (0 <=? _)%Z; discriminate]. apply Z.ltb_lt in Q'. destruct (Z.leb_spec 0 (axis_value ax)); lia.
      * apply right_beyond; auto. cbn [is_right is_left] in D.
        destruct (is_new ax && (length (ashape d) =? 1) && ((axis_value ax =? -1)%Z && true || (axis_value ax =? 0)%Z && false)) eqn:Q.
        -- rewrite !Bool.andb_true_iff, Bool.orb_true_iff, !Bool.andb_true_iff in Q. destruct Q as [[Q1 Q2] [[Q3 _]|[_ Q3]]]; [|discriminate].
           apply Nat.eqb_eq in Q2. apply Z.eqb_eq in Q3. destruct ax; [discriminate|]. rewrite Q3 in PV. cbn [axis_value Z.leb Z.compare] in *. lia.
        -- destruct (_ <? _)%Z eqn:Q'; [|destruct (_ <? 0)%Z; discriminate]. apply Z.ltb_lt in Q'. destruct (Z.leb_spec 0 (axis_value ax)); lia.
      * apply left_beyond; auto; try discriminate. rewrite (HP eq_refl). cbn. lia.
  - destruct (known part) as [ns|] eqn:EK; [|discriminate]. cbn [rbind] in E. apply (sizes_known _ _ _ S) in EK. subst ns.
    destruct (rmap _ _) as [l|] eqn:EL; [|discriminate]. injection E as <-. destruct shape as [s'|].
    + destruct R as [-> N]. assert (Q : same_kind ax ax' /\ partitioned ax' p s a).
      { unfold decide in D. cbv zeta in D. assert (X : same_kind ax ax) by (destruct ax; exact I).
        destruct b; try (destruct (_ <? _)%Z; [discriminate|]); injection D as <-; auto.
        split; [destruct ax; exact I|]. apply partitioned_shift; auto. }
      destruct Q as [Q P']. apply (parts_read b d s ax p a ax' a (spread b d (Some s))); auto. intros lo n _. apply spread_cut; auto.
    + destruct R as [U _]. cbn [spread] in EL.
      assert (NS : b <> Scalar) by (intros ->; discriminate D).
      assert (ax' = ax) as ->.
      { unfold decide in D. cbv zeta in D. destruct b; try congruence;
        repeat match goal with H : context [if ?c then _ else _] |- _ => destruct c; try discriminate H end; congruence. }
      destruct (position_data b ax d s a D NS F (proj1 P)) as (D1 & D2 & D3). unfold unstretched, facing_size in U.
      destruct (is_right b) eqn:RB.
      * destruct b; try discriminate. specialize (D1 eq_refl). specialize (D2 eq_refl). cbn [dfits] in F.
        destruct (Nat.eq_dec a (length (ashape d))) as [Ea|Ea].
        -- destruct p as [|n p].
           ++ cbn in EL. injection EL as <-. split; [reflexivity|]. cbn. lia.
           ++ exfalso. unfold get_slices in EL. rewrite slices_cons in EL. cbn [rmap] in EL. rewrite getitem_beyond in EL; [discriminate|].
              assert (PV := position_value _ _ _ (proj1 P)). unfold decide in D. cbn [is_right] in D. cbv zeta in D.
              destruct (_ && _); [discriminate|]. destruct (_ <? _)%Z; [discriminate|]. destruct (axis_value ax <? 0)%Z eqn:Q; [discriminate|].
              apply Z.ltb_ge in Q. destruct (Z.leb_spec 0 (axis_value ax)); lia.
        -- destruct (nth_error (ashape d) a) eqn:NE; [|apply nth_error_None in NE; lia]. apply nth_error_nth0 in NE.
           apply (parts_read Rightward d s ax p a ax a d); auto.
           ++ apply (partitioned_data ax p s a); auto; [apply D1; lia|lia].
           ++ intros lo n1 Hf. apply right_cut; auto; lia.
      * destruct (D3 eq_refl) as [L PD]. assert (NR : b <> Rightward) by (intros ->; discriminate).
        assert (F' : stretches (rev (ashape d)) (rev s)) by (eapply fits_left; eauto).
        assert (N0 : nth (length s - 1 - a) (rev (ashape d)) 0 = nth a s 0).
        { destruct (nth_error (rev (ashape d)) (length s - 1 - a)) eqn:NE; [|apply nth_error_None in NE; rewrite rev_length in NE; lia].
          apply nth_error_nth0 in NE. destruct b; try congruence. }
        apply (parts_read b d s ax p a ax (length (ashape d) - 1 - (length s - 1 - a)) d); auto.
        -- apply (partitioned_data ax p s a); auto. rewrite <- N0.
           assert (X := nth_rev' (rev (ashape d)) (length s - 1 - a)). rewrite rev_involutive, rev_length in X. apply X; lia.
        -- intros lo n Hf. apply left_cut; auto. intros ->. exact F.
Qed.
End Rule.

(** ** Operators *)
Section Operators.
Context {K : dring}.
Add Ring KringDist : (rth K).
Lemma piece_shape' {A} ax a p k (x : array A) : ashape (piece ax a p k x) = pshape ax a (nth k p 0) (ashape x).
Proof. unfold piece. apply cut_shape. Qed.
Lemma piece_val {A} ax a p k (x : array A) idx : aval (piece ax a p k x) idx = aval x (glob ax a (offset p k) idx).
Proof. unfold piece. apply cut_val. Qed.
Lemma elementwise_piece (c c' : list nat -> K) ax a p k (x y y' : array K) : partitioned ax p (ashape x) a -> k < length p ->
  elementwise (fun idx v => rmul (c idx) v) x y -> elementwise (fun idx v => rmul (c' idx) v) (piece ax a p k x) y' ->
  (forall idx, inside (pshape ax a (nth k p 0) (ashape x)) idx -> c' idx = c (glob ax a (offset p k) idx)) ->
  aeq y' (piece ax a p k y).
Proof.
  intros P Hk [S E] [S' E'] C. split; [rewrite S', !piece_shape', S; reflexivity|]. intros idx I. rewrite S' in I.
  rewrite E' by auto. rewrite piece_shape' in I. rewrite !piece_val, C, E; auto.
  eapply glob_inside; eauto using position_lt, partitioned_fits. apply (position_lt ax), P.
Qed.
Lemma rmap_length {X Y} (f : X -> result Y) : forall l l', rmap f l = Ok l' -> length l' = length l.
Proof.
  induction l as [|x l IH]; cbn; intros l' E; [injection E as <-; reflexivity|].
  destruct (f x); [|discriminate]. cbn in E. destruct (rmap f l) eqn:Q; [|discriminate]. injection E as <-. cbn. f_equal. auto.
Qed.
Lemma rmap_nth {X Y} (f : X -> result Y) : forall l l' k dx dy, rmap f l = Ok l' -> k < length l -> f (nth k l dx) = Ok (nth k l' dy).
Proof.
  induction l as [|x l IH]; cbn [rmap]; intros l' k dx dy E L; [cbn in L; lia|].
  destruct (f x) eqn:Q; [|discriminate]. cbn [rbind] in E. destruct (rmap f l) eqn:Q2; [|discriminate]. injection E as <-.
  destruct k; cbn [nth]; auto. apply IH; auto. cbn in L. lia.
Qed.
Lemma nth_repeat' {X} (v d : X) n k : k < n -> nth k (repeat v n) d = v.
Proof. revert k. induction n; intros [|k] H; cbn; auto; try lia. apply IHn. lia. Qed.

(** What holds of the replicated operator and of the new ones holds of them all. *)
Lemma parts_of_ok {A T} (Q : nat -> T -> Prop) (same : T) (mk : array A -> result T) m r ts (d : array A) b s ax p a :
  parts_of same mk m (Ok r) = Ok (Some ts) -> m = length p ->
  match r with
  | Nothing => True
  | Same => forall k, k < length p -> part_ok b d s ax a (offset p k) (nth k p 0) d
  | Parts l => length l = length p /\ forall k dflt, k < length p -> part_ok b d s ax a (offset p k) (nth k p 0) (nth k l dflt)
  end ->
  (r = Same -> forall k, k < length p -> part_ok b d s ax a (offset p k) (nth k p 0) d -> Q k same) ->
  (forall l k e t, r = Parts l -> k < length p -> part_ok b d s ax a (offset p k) (nth k p 0) e -> mk e = Ok t -> Q k t) ->
  length ts = length p /\ forall k dflt, k < length p -> Q k (nth k ts dflt).
Proof.
  intros E -> H H1 H2. destruct r as [| |l]; cbn in E; [discriminate| |].
  - injection E as <-. split; [apply repeat_length|]. intros k dflt Hk. rewrite nth_repeat'; auto.
  - destruct (rmap mk l) as [ts'|] eqn:R; [|discriminate]. injection E as <-. destruct H as [L H].
    split; [rewrite (rmap_length _ _ _ R); auto|]. intros k dflt Hk. apply (H2 l k (nth k l d)); auto.
    apply rmap_nth with (1 := R). lia.
Qed.

Lemma apply_free op (x : array K) g b : wf op -> get_data op = Some (g, b) -> d_shape op = None -> dfits b (gshape g) (ashape x) ->
  exists y, apply op x = Ok y /\ elementwise (fun idx v => rmul (coefficient b (nums g) idx) v) x y.
Proof.
  intros W G N F. assert (exists y, apply op x = Ok y) as [y E].
  { unfold apply. rewrite N. unfold wf, get_data in *. destruct (d_class op) as [| |c|m bm|d bd]; try discriminate; injection G as <- <-; cbn [rbind].
    - eauto.
    - destruct (direct_ok rmul (scalar c) Scalar x) as (y' & E' & Y); [exact I|]. exists y'. exact E'.
    - destruct (direct_ok masking m bm x F) as (y' & E' & Y). exists y'. exact E'.
    - destruct W as [_ W]. rewrite validatein_ok; auto; [|intros ->; rewrite W in N; discriminate || auto].
      destruct (direct_ok rmul d bd x F) as (y' & E' & Y). exists y'. exact E'. }
  exists y. split; auto. apply (applied op g b x y); auto.
Qed.

Lemma scalar_part (c : K) s ax a lo n e idx b : part_ok b (scalar c) s ax a lo n e -> inside (pshape ax a n s) idx -> coefficient b e idx = c.
Proof. intros [_ C] I. rewrite C by auto. apply coefficient_nil. reflexivity. Qed.

Lemma same_cases {A} (d : array A) b shape part ax : rule_block d b shape part ax = Ok Same -> b <> Disabled /\ (b = Scalar -> shape = None).
Proof.
  unfold rule_block. destruct part as [part|]; [|discriminate]. destruct ax as [ax|]; [|discriminate]. destruct (_ && _); [discriminate|].
  destruct (decide _ _ _ _) eqn:D; [discriminate| |].
  - intros _. destruct b, shape; cbn in D; split; congruence.
  - destruct (known part); [|discriminate]. cbn. destruct (rmap _ _); discriminate.
Qed.
Lemma homothety_array_ok (e : array K) t : homothety_array e None = Ok t -> exists c, t = homothety c None /\ forall v, In v (ravel e) -> v = c.
Proof.
  unfold homothety_array. destruct (ashape e) eqn:S.
  - intros [= <-]. eexists. split; [reflexivity|]. unfold ravel. rewrite S. cbn. intros v [<-|[]]. reflexivity.
  - destruct (ravel e) as [|c v]; [discriminate|]. destruct (existsb _ _) eqn:Q; [discriminate|]. intros [= <-]. exists c. split; auto.
    intros w Hw. destruct (deq c w) eqn:D; [symmetry; apply deq_true; auto|].
    assert (existsb (fun x => negb (deq c x)) (c :: v) = true); [|congruence]. apply existsb_exists. exists w. rewrite D. auto.
Qed.

Theorem split_diag_ok (op : diag K) m shape part ax p a ops x y : made op -> partitioned ax p (ashape x) a -> sizes part p ->
  diag_ready op shape (ashape x) ax a -> m = length p ->
  split_diag op m shape (Some part) (Some ax) = Ok (Some ops) -> apply op x = Ok y ->
  length ops = length p /\
  forall k dflt, k < length p -> exists y', apply (nth k ops dflt) (piece ax a p k x) = Ok y' /\ aeq y' (piece ax a p k y).
Proof.
  intros W P S R Hm E Y. apply made_wf in W. unfold diag_ready in R.
  destruct (get_data op) as [[g b]|] eqn:G; [|unfold split_diag, get_data in *; destruct (d_class op); discriminate].
  destruct (applied op g b x y W G Y) as (PR & F & EW). destruct R as [R RP].
  unfold split_diag in E. assert (G' := G). unfold get_data in G.
  destruct (d_class op) as [| |c|mm bm|d bd] eqn:CL; try discriminate; injection G as <- <-; cbn [nums gshape ashape scalar] in *.
  - destruct (rule_block _ _ _ _ _) as [r|] eqn:RB; [|discriminate].
    assert (H := rule_block_ok Scalar (scalar (A := K) r1) shape part (ashape x) ax p a r PR F P S R RB).
    apply (parts_of_ok (fun k t => exists y', apply t (piece ax a p k x) = Ok y' /\ aeq y' (piece ax a p k y)) _ _ _ r _ _ _ _ _ _ _ E Hm H).
    + intros -> k Hk [PF PC]. destruct (same_cases _ _ _ _ _ RB) as [ND NS]. assert (N : d_shape op = None) by (destruct RP as [|[|[Z Z']]]; auto; [congruence|destruct Z'; auto]).
      destruct (apply_free op (piece ax a p k x) _ _ W G' N) as (y' & E' & Y'); [rewrite piece_shape'; exact PF|].
      exists y'. split; auto. eapply elementwise_piece; eauto.
    + intros l k e t _ Hk PO [= <-]. exists (piece ax a p k x). split; [apply apply_identity; left; reflexivity|].
      apply (elementwise_piece _ (fun _ => r1) ax a p k x y _ P Hk EW).
      * apply elementwise_id. intros. ring.
      * intros idx I. symmetry. apply coefficient_nil. reflexivity.
  - destruct (rule_block _ _ _ _ _) as [r|] eqn:RB; [|discriminate].
    assert (H := rule_block_ok Scalar (scalar c) shape part (ashape x) ax p a r PR F P S R RB).
    apply (parts_of_ok (fun k t => exists y', apply t (piece ax a p k x) = Ok y' /\ aeq y' (piece ax a p k y)) _ _ _ r _ _ _ _ _ _ _ E Hm H).
    + intros -> k Hk [PF PC]. destruct (same_cases _ _ _ _ _ RB) as [ND NS]. assert (N : d_shape op = None) by (destruct RP as [|[|[Z Z']]]; auto; [congruence|destruct Z'; auto]).
      destruct (apply_free op (piece ax a p k x) _ _ W G' N) as (y' & E' & Y'); [rewrite piece_shape'; exact PF|].
      exists y'. split; auto. eapply elementwise_piece; eauto.
    + intros l k e t _ Hk PO ME. destruct (homothety_array_ok e t ME) as (c' & -> & Hc).
      destruct (apply_homothety c' None (piece ax a p k x)) as (y' & E' & Y'); [left; reflexivity|].
      exists y'. split; auto. apply (elementwise_piece _ (fun _ => c') ax a p k x y _ P Hk EW).
      * eapply elementwise_ext; [exact Y'|]. intros. cbv beta. ring.
      * intros idx I. rewrite coefficient_nil by reflexivity. cbn [aval scalar].
        rewrite <- (scalar_part c _ _ _ _ _ e idx Scalar PO I). symmetry. apply Hc. eapply coefficient_in; [apply PO|exact I].
  - destruct (rule_block _ _ _ _ _) as [r|] eqn:RB; [|discriminate].
    assert (H := rule_block_ok bm mm shape part (ashape x) ax p a r PR F P S R RB).
    apply (parts_of_ok (fun k t => exists y', apply t (piece ax a p k x) = Ok y' /\ aeq y' (piece ax a p k y)) _ _ _ r _ _ _ _ _ _ _ E Hm H).
    + intros -> k Hk [PF PC]. destruct (same_cases _ _ _ _ _ RB) as [ND NS]. assert (N : d_shape op = None) by (destruct RP as [|[|[Z Z']]]; auto; [congruence|destruct Z'; auto]).
      destruct (apply_free op (piece ax a p k x) _ _ W G' N) as (y' & E' & Y'); [rewrite piece_shape'; exact PF|].
      exists y'. split; auto. apply (elementwise_piece _ _ ax a p k x y _ P Hk EW Y'). intros idx I. cbn [nums].
      specialize (PC idx I). unfold coefficient in *. cbn [ashape aval]. rewrite PC. reflexivity.
    + intros l k e t _ Hk [PF PC] [= <-]. destruct (apply_mask e bm None (piece ax a p k x)) as (y' & E' & Y'); [rewrite piece_shape'; exact PF|left; reflexivity|].
      exists y'. split; auto. apply (elementwise_piece _ (fun idx => number (K := K) (negb (coefficient bm e idx))) ax a p k x y _ P Hk EW).
      * eapply elementwise_ext; [exact Y'|]. intros. cbv beta. destruct (coefficient bm e idx); cbn; ring.
      * intros idx I. rewrite (PC idx I). reflexivity.
  - destruct (rule_block _ _ _ _ _) as [r|] eqn:RB; [|discriminate].
    assert (H := rule_block_ok bd d shape part (ashape x) ax p a r PR F P S R RB).
    apply (parts_of_ok (fun k t => exists y', apply t (piece ax a p k x) = Ok y' /\ aeq y' (piece ax a p k y)) _ _ _ r _ _ _ _ _ _ _ E Hm H).
    + intros -> k Hk [PF PC]. destruct (same_cases _ _ _ _ _ RB) as [ND NS]. assert (N : d_shape op = None) by (destruct RP as [|[|[Z Z']]]; auto; [congruence|destruct Z'; auto]).
      destruct (apply_free op (piece ax a p k x) _ _ W G' N) as (y' & E' & Y'); [rewrite piece_shape'; exact PF|].
      exists y'. split; auto. apply (elementwise_piece _ _ ax a p k x y _ P Hk EW Y'). exact PC.
    + intros l k e t _ Hk [PF PC] [= <-]. destruct (apply_diagonal e bd (piece ax a p k x)) as (y' & E' & Y'); [rewrite piece_shape'; exact PF|].
      exists y'. split; auto. apply (elementwise_piece _ _ ax a p k x y _ P Hk EW Y'). exact PC.
Qed.

(** ** Constants *)
Lemma const_free (k : constop K) out g b : cwf k -> cdata k = (g, b) -> c_shape k = None -> dfits b (gshape g) out ->
  exists y, constant_apply k out = Ok y /\ ashape y = out /\ forall idx, inside out idx -> aval y idx = coefficient b (nums g) idx.
Proof.
  intros W G N F. unfold constant_apply. rewrite N. cbn [rbind]. unfold cdata in G. destruct (c_class k) as [|d b']; injection G as <- <-.
  - destruct (assign_direct_ok (scalar (A := K) r0) Scalar out I) as (y & E & Y). exists y. split; [exact E|exact Y].
  - destruct (assign_direct_ok d b' out F) as (y & E & Y). exists y. split; [destruct b'; exact E|exact Y].
Qed.
Theorem split_const_ok (op : constop K) m shape part ax p a ops (y c : array K) : kmade op -> partitioned ax p (ashape y) a -> sizes part p ->
  const_ready op shape (ashape y) ax a -> m = length p ->
  split_const op m shape (Some part) (Some ax) = Ok (Some ops) -> constant_apply op (ashape y) = Ok c ->
  length ops = length p /\
  forall k dflt, k < length p -> exists c', constant_apply (nth k ops dflt) (ashape (piece ax a p k y)) = Ok c' /\ aeq c' (piece ax a p k c).
Proof.
  intros W P S R Hm E Y. apply kmade_cwf in W. unfold const_ready in R. assert (CA := const_applied op _ _ W Y).
  destruct (cdata op) as [g b] eqn:G. destruct CA as (PR & F & SY & EW). destruct R as [R RP].
  assert (fin : forall k e b' (c' : array K), k < length p -> ashape c' = ashape (piece ax a p k y) ->
     (forall idx, inside (ashape (piece ax a p k y)) idx -> aval c' idx = coefficient b' e idx) ->
     (forall idx, inside (pshape ax a (nth k p 0) (ashape y)) idx -> coefficient b' e idx = coefficient b (nums g) (glob ax a (offset p k) idx)) ->
     aeq c' (piece ax a p k c)).
  { intros k e b' c' Hk S1 V1 C1. split; [rewrite S1, !piece_shape', SY; reflexivity|]. intros idx I. rewrite S1 in I. rewrite V1 by auto.
    rewrite piece_shape' in I. rewrite piece_val, C1, EW; auto. eapply glob_inside; eauto using partitioned_fits. apply (position_lt ax), P. }
  unfold split_const in E. assert (G' := G). unfold cdata in G.
  destruct (c_class op) as [|d bd] eqn:CL; injection G as <- <-; cbn [nums gshape ashape scalar] in *.
  - destruct (rule_block _ _ _ _ _) as [r|] eqn:RB; [|discriminate].
    assert (H := rule_block_ok Scalar (scalar (A := K) r0) shape part (ashape y) ax p a r PR F P S R RB).
    apply (parts_of_ok (fun k t => exists c', constant_apply t (ashape (piece ax a p k y)) = Ok c' /\ aeq c' (piece ax a p k c)) _ _ _ r _ _ _ _ _ _ _ E Hm H).
    + intros -> k Hk [PF PC]. destruct (same_cases _ _ _ _ _ RB) as [ND NS]. assert (N : c_shape op = None) by (destruct RP as [|[|[Z Z']]]; auto; [congruence|destruct Z'; auto]).
      destruct (const_free op (ashape (piece ax a p k y)) _ _ W G' N) as (y' & E' & S' & V'); [rewrite piece_shape'; exact PF|].
      exists y'. split; auto. apply (fin k _ _ _ Hk S' V' PC).
    + intros l k e t _ Hk PO [= <-].
      destruct (const_free (C (CZero (K := K)) None) (ashape (piece ax a p k y)) (Nums (scalar r0)) Scalar) as (y' & E' & S' & V'); [exact I|reflexivity|reflexivity|exact I|].
      exists y'. split; auto. apply (fin k _ _ _ Hk S' V'). intros idx I. rewrite !coefficient_nil by reflexivity. reflexivity.
  - destruct (rule_block _ _ _ _ _) as [r|] eqn:RB; [|discriminate].
    assert (H := rule_block_ok bd d shape part (ashape y) ax p a r PR F P S R RB).
    apply (parts_of_ok (fun k t => exists c', constant_apply t (ashape (piece ax a p k y)) = Ok c' /\ aeq c' (piece ax a p k c)) _ _ _ r _ _ _ _ _ _ _ E Hm H).
    + intros -> k Hk [PF PC]. destruct (same_cases _ _ _ _ _ RB) as [ND NS]. assert (N : c_shape op = None) by (destruct RP as [|[|[Z Z']]]; auto; [congruence|destruct Z'; auto]).
      destruct (const_free op (ashape (piece ax a p k y)) _ _ W G' N) as (y' & E' & S' & V'); [rewrite piece_shape'; exact PF|].
      exists y'. split; auto. apply (fin k _ _ _ Hk S' V' PC).
    + intros l k e t _ Hk [PF PC] ME. assert (NE : ravel e <> [] ).
      { intros Z. unfold constant in ME. rewrite Z in ME. destruct (ashape e) eqn:SE; [|discriminate]. unfold ravel in Z. rewrite SE in Z. discriminate. }
      destruct (constant_ok e bd (ashape (piece ax a p k y))) as (t' & y' & E0 & E' & S' & V'); [rewrite piece_shape'; exact PF|exact NE|].
      rewrite ME in E0. injection E0 as <-. exists y'. split; auto. apply (fin k _ _ _ Hk S' V' PC).
Qed.
End Operators.
