From Verif Require Import Base Algebra IndexModel IndexSpec.

(** ** Packing *)
Lemma pack_app {A} (d1 d2 : list bool) (x1 x2 : list A) :
  length d1 = length x1 -> pack (d1 ++ d2) (x1 ++ x2) = pack d1 x1 ++ pack d2 x2.
Proof.
  revert x1; induction d1 as [|b d1 IH]; intros [|a x1] H; simpl in H; try discriminate; auto.
  simpl. rewrite IH by lia. destruct b; reflexivity.
Qed.

Theorem pack_kept {A} (d : A) data (x : list A) : length x = length data -> pack data x = kept d data x.
Proof.
  unfold kept. revert x; induction data as [|b data IH] using rev_ind; intros x H; [destruct x; auto|].
  rewrite app_length in H; simpl in H.
  destruct (exists_last (l := x)) as (x' & a & ->); [destruct x; simpl in H; [lia|discriminate]|].
  rewrite app_length in H; simpl in H.
  rewrite pack_app by lia. rewrite (IH x') by lia. rewrite app_length; simpl. rewrite seq_app, filter_app, map_app. simpl.
  f_equal.
  - rewrite (filter_ext_in (fun i => nth i data false) (fun i => nth i (data ++ [b]) false)).
    2:{ intros i Hi. apply in_seq in Hi. rewrite app_nth1 by lia. reflexivity. }
    apply map_ext_in. intros i Hi. apply filter_In in Hi as [Hi _]. apply in_seq in Hi. rewrite app_nth1 by lia. reflexivity.
  - rewrite app_nth2, Nat.sub_diag by lia. simpl. destruct b; simpl; auto. rewrite app_nth2 by lia.
    replace (length data - length x')%nat with 0%nat by lia. reflexivity.
Qed.

Lemma pack_length {A} data (x : list A) : length x = length data -> length (pack data x) = ntrue data.
Proof.
  unfold ntrue. revert x; induction data as [|b data IH]; intros [|a x] H; simpl in H; try discriminate; auto.
  simpl. destruct b; simpl; rewrite IH by lia; auto.
Qed.
Lemma unpack_length {A} (z : A) data y : length (unpack z data y) = length data.
Proof. revert y; induction data as [|[] data IH]; intros y; simpl; auto. destruct y; simpl; rewrite IH; auto. Qed.

Theorem unpack_nth {A} (z : A) data y i : i < length data ->
  nth i (unpack z data y) z = if nth i data false then nth (rank data i) y z else z.
Proof.
  unfold rank, ntrue. revert y i; induction data as [|[] data IH]; intros y i Hi; simpl in Hi; [lia| |].
  - destruct i as [|i]; simpl.
    + destruct y; reflexivity.
    + destruct y as [|a y]; simpl; rewrite IH by lia; auto. destruct (nth i data false); auto.
      match goal with |- nth ?n [] z = z => destruct n; reflexivity end.
  - destruct i as [|i]; simpl; auto. rewrite IH by lia. reflexivity.
Qed.

Theorem pack_unpack {A} (z : A) data y : length y = ntrue data -> pack data (unpack z data y) = y.
Proof.
  unfold ntrue. revert y; induction data as [|[] data IH]; intros y H; simpl in *.
  - destruct y; auto; discriminate.
  - destruct y as [|a y]; simpl in H; [discriminate|]. simpl. rewrite IH by lia. reflexivity.
  - apply IH; auto.
Qed.

Theorem unpack_pack {A} (z : A) data x : length x = length data ->
  unpack z data (pack data x) = mask_direct z (map negb data) x.
Proof.
  revert x; induction data as [|[] data IH]; intros [|a x] H; simpl in H; try discriminate; simpl; auto; rewrite IH by lia; auto.
Qed.

Theorem mask_nth {A} (z : A) data x i : length x = length data -> i < length x ->
  nth i (mask_direct z data x) z = if nth i data false then z else nth i x z.
Proof.
  revert x i; induction data as [|b data IH]; intros [|a x] i H Hi; simpl in *; try lia.
  destruct i; simpl; [destruct b; auto|]. apply IH; lia.
Qed.

Theorem pack_adjoint (K : cring) data (x y : list K) : length x = length data -> length y = ntrue data ->
  ldot (pack data x) y = ldot x (unpack r0 data y).
Proof.
  unfold ntrue. revert x y; induction data as [|[] data IH]; intros [|a x] y H Hy; simpl in *; try discriminate.
  - reflexivity.
  - destruct y as [|b y]; simpl in Hy; [discriminate|]. rewrite !ldot_cons, IH by lia. reflexivity.
  - rewrite ldot_cons, IH by lia. rewrite rmul_0_r, radd_0_l. reflexivity.
Qed.

Lemma all_true_pack {A} data (x : list A) : all_true data = true -> length x = length data -> pack data x = x.
Proof.
  revert x; induction data as [|[] data IH]; intros [|a x] H L; simpl in *; try discriminate; auto. rewrite IH by (auto; lia). auto.
Qed.
Lemma all_true_unpack {A} (z : A) data y : all_true data = true -> length y = length data -> unpack z data y = y.
Proof.
  revert y; induction data as [|[] data IH]; intros [|a y] H L; simpl in *; try discriminate; auto. rewrite IH by (auto; lia). auto.
Qed.
Lemma ntrue_all data : all_true data = true -> ntrue data = length data.
Proof. unfold ntrue, all_true. induction data as [|[] data IH]; simpl; intros; try discriminate; auto. Qed.

Theorem pack_op_values {A} data (x : list A) : data <> [] -> length x = length data -> pack_op data x = Ok (pack data x).
Proof.
  intros Hn H. unfold pack_op. destruct data as [|b data]; [congruence|]. destruct (all_true (b :: data)) eqn:E; auto.
  rewrite all_true_pack; auto.
Qed.
Theorem unpack_op_values {A} (z : A) data y : data <> [] -> length y = ntrue data ->
  unpack_op z data y = Ok (unpack z data y).
Proof.
  intros Hn H. unfold unpack_op. destruct data as [|b data]; [congruence|]. destruct (all_true (b :: data)) eqn:E; auto.
  rewrite all_true_unpack; auto. rewrite H. apply ntrue_all; auto.
Qed.

Theorem pack_map {A B} (f : A -> B) data x : map f (pack data x) = pack data (map f x).
Proof. revert x; induction data as [|[] data IH]; intros [|a x]; simpl; auto. rewrite IH; auto. Qed.
Theorem unpack_map {A B} (f : A -> B) z data y : map f (unpack z data y) = unpack (f z) data (map f y).
Proof. revert y; induction data as [|[] data IH]; intros [|a y]; simpl; auto; rewrite IH; auto. Qed.

Theorem pack_rightward_column {A} (d : A) data x j :
  map (fun row => nth j row d) (pack_rightward data x) = pack data (map (fun row => nth j row d) x).
Proof. apply pack_map. Qed.
Theorem unpack_rightward_column {A} (z : A) w data y j :
  map (fun row => nth j row z) (unpack_rightward z w data y) = unpack z data (map (fun row => nth j row z) y).
Proof.
  unfold unpack_rightward. rewrite unpack_map. f_equal.
  revert j; induction w; intros [|j]; simpl; auto.
Qed.

(** Shapes *)
Lemma list_nat_eqb_iff a b : list_nat_eqb a b = true <-> a = b.
Proof. unfold list_nat_eqb. destruct (list_eq_dec _ _ _); split; auto; discriminate. Qed.

Lemma butlast_app {A} (l l' : list A) : butlast_n (length l') (l ++ l') = l.
Proof.
  unfold butlast_n. rewrite app_length. replace (length l + length l' - length l')%nat with (length l + 0)%nat by lia.
  rewrite firstn_app_2. simpl. apply app_nil_r.
Qed.
Lemma last_n_app {A} (l l' : list A) : last_n (length l') (l ++ l') = l'.
Proof. unfold last_n. rewrite app_length. replace (length l + length l' - length l')%nat with (length l) by lia. rewrite skipn_app, skipn_all, Nat.sub_diag. reflexivity. Qed.
Lemma butlast_last {A} n (l : list A) : butlast_n n l ++ last_n n l = l.
Proof. apply firstn_skipn. Qed.

Theorem reshape_inverse b n dshape shape : validate_unpacked b dshape shape = Ok tt ->
  reshape_packed b dshape (reshape_unpacked b n dshape shape) = shape /\
  validate_packed b n (reshape_unpacked b n dshape shape) = Ok tt.
Proof.
  unfold validate_unpacked. destruct (list_nat_eqb _ _) eqn:E; [|discriminate]. intros _. apply list_nat_eqb_iff in E.
  unfold validate_packed. destruct b; simpl.
  - change 1 with (length [n]). rewrite butlast_app. rewrite <- E at 2. rewrite butlast_last. split; auto.
    rewrite rev_app_distr; simpl. rewrite Nat.eqb_refl; auto.
  - rewrite <- E at 1. rewrite firstn_skipn. rewrite Nat.eqb_refl. auto.
Qed.
Theorem reshape_inverse' b n dshape shape : validate_packed b n shape = Ok tt ->
  reshape_unpacked b n dshape (reshape_packed b dshape shape) = shape /\
  validate_unpacked b dshape (reshape_packed b dshape shape) = Ok tt.
Proof.
  unfold validate_packed, validate_unpacked. destruct b; simpl.
  - intros H. destruct (rev shape) as [|a l] eqn:E; simpl in H; [discriminate|].
    destruct (a =? n) eqn:En; [|discriminate]. apply Nat.eqb_eq in En; subst a.
    assert (S : shape = rev l ++ [n]) by (rewrite <- (rev_involutive shape), E; reflexivity).
    rewrite S. change 1 with (length [n]). rewrite butlast_app, butlast_app, last_n_app. split; auto.
    rewrite (proj2 (list_nat_eqb_iff _ _)); auto.
  - intros H. destruct shape as [|a l]; simpl in H; [discriminate|]. destruct (a =? n) eqn:En; [|discriminate].
    apply Nat.eqb_eq in En; subst a. simpl. rewrite skipn_app, skipn_all, Nat.sub_diag. simpl. split; auto.
    rewrite firstn_app, Nat.sub_diag, firstn_all, app_nil_r. rewrite (proj2 (list_nat_eqb_iff _ _)); auto.
Qed.

(** ** Index conversions *)
Local Open Scope Z_scope.

(** products of the lengths that follow *)
Fixpoint csuf (shape : list Z) : list Z :=
  match shape with [] => [] | _ :: s => size s :: csuf s end.
Definition nd (shape : list Z) (k : Z) : list Z := map (fun p => (k / fst p) mod snd p) (combine (csuf shape) shape).

Lemma csuf_length s : length (csuf s) = length s.
Proof. induction s; simpl; auto. Qed.

Lemma size_app a b : size (a ++ b) = size a * size b.
Proof. unfold size. induction a as [|x a IH]; simpl app; simpl fold_right; [lia|]. rewrite IH. lia. Qed.
Lemma size_rev a : size (rev a) = size a.
Proof. induction a as [|x a IH]; auto. simpl rev. rewrite size_app, IH. unfold size; simpl; lia. Qed.
Lemma size_cons n s : size (n :: s) = n * size s.
Proof. reflexivity. Qed.

Lemma cumprod_from_app a l x : cumprod_from a (l ++ [x]) = cumprod_from a l ++ [a * size l * x].
Proof.
  revert a; induction l as [|y l IH]; intros a; simpl.
  - unfold size; simpl. f_equal. lia.
  - rewrite IH. unfold size; simpl. f_equal. f_equal. f_equal. lia.
Qed.

Lemma cumprod_csuf n t : rev (cumprod (1 :: rev t)) = csuf (n :: t).
Proof.
  induction t as [|x t IH]; [reflexivity|]. simpl rev at 2. unfold cumprod in *.
  change (1 :: rev t ++ [x]) with ((1 :: rev t) ++ [x]). rewrite cumprod_from_app, rev_app_distr, IH. cbn [rev app csuf].
  f_equal. rewrite !size_cons, size_rev. lia.
Qed.

Lemma coefs_C shape : (2 <= length shape)%nat -> coefs shape OrderC = Ok (csuf shape).
Proof.
  intros H. unfold coefs. destruct shape as [|n [|m t]]; simpl in H; try lia. simpl Nat.eqb. cbv iota.
  rewrite <- (cumprod_csuf n (m :: t)). reflexivity.
Qed.
Lemma coefs_F shape : (2 <= length shape)%nat -> coefs shape OrderF = Ok (rev (csuf (rev shape))).
Proof.
  intros H. unfold coefs. replace (length shape =? 1)%nat with false by (symmetry; apply Nat.eqb_neq; lia).
  f_equal. rewrite <- (rev_involutive shape) at 1. destruct (rev shape) as [|n t] eqn:E.
  - apply (f_equal (@length _)) in E. rewrite rev_length in E. simpl in E; lia.
  - simpl rev at 1. rewrite removelast_last. rewrite <- (cumprod_csuf n t). rewrite rev_involutive. reflexivity.
Qed.

Lemma zdot_app x y x' y' : length x = length y -> zdot (x ++ x') (y ++ y') = zdot x y + zdot x' y'.
Proof.
  unfold zdot. revert y; induction x as [|a x IH]; intros [|b y] H; simpl in H; try discriminate; auto.
  simpl. rewrite IH by lia. lia.
Qed.
Lemma zdot_rev x y : length x = length y -> zdot (rev x) (rev y) = zdot x y.
Proof.
  revert y; induction x as [|a x IH]; intros [|b y] H; simpl in H; try discriminate; auto.
  simpl rev. rewrite zdot_app by (rewrite !rev_length; lia). rewrite IH by lia. unfold zdot; simpl; lia.
Qed.
Lemma combine_rev {A B} (x : list A) (y : list B) : length x = length y -> combine (rev x) (rev y) = rev (combine x y).
Proof.
  revert y; induction x as [|a x IH]; intros [|b y] H; simpl in H; try discriminate; auto.
  simpl. rewrite <- IH by lia.
  assert (G : forall (u : list A) (v : list B), length u = length v -> combine (u ++ [a]) (v ++ [b]) = combine u v ++ [(a, b)]).
  { induction u; intros [|? v] Huv; simpl in Huv; try discriminate; auto. simpl. rewrite IHu by lia; auto. }
  apply G. rewrite !rev_length; lia.
Qed.

Lemma to1d_C shape idx : (2 <= length shape)%nat -> to1d shape OrderC idx = Ok (zdot idx (csuf shape)).
Proof. intros H. unfold to1d. rewrite coefs_C; auto. Qed.
Lemma to1d_F shape idx : (2 <= length shape)%nat -> length idx = length shape ->
  to1d shape OrderF idx = Ok (zdot (rev idx) (csuf (rev shape))).
Proof.
  intros H L. unfold to1d. rewrite coefs_F by auto. simpl. f_equal. rewrite <- zdot_rev, rev_involutive; auto.
  rewrite rev_length, csuf_length, rev_length; auto.
Qed.
Lemma tond_C shape k : (2 <= length shape)%nat -> tond shape OrderC k = Ok (nd shape k).
Proof. intros H. unfold tond. rewrite coefs_C; auto. Qed.
Lemma tond_F shape k : (2 <= length shape)%nat -> tond shape OrderF k = Ok (rev (nd (rev shape) k)).
Proof.
  intros H. unfold tond. rewrite coefs_F by auto. simpl. f_equal. unfold nd. rewrite <- map_rev.
  rewrite <- combine_rev by (rewrite csuf_length; auto). rewrite rev_involutive. reflexivity.
Qed.

Lemma size_pos s : positive s -> 0 < size s.
Proof. induction 1; unfold size in *; simpl; [lia|]. nia. Qed.

Lemma valid_positive s idx : valid s idx -> positive s.
Proof. induction 1; constructor; auto; lia. Qed.
Lemma valid_length s idx : valid s idx -> length idx = length s.
Proof. induction 1; simpl; auto. Qed.
Lemma valid_rev s idx : valid s idx -> valid (rev s) (rev idx).
Proof. unfold valid. intros H. induction H; simpl; [constructor|]. apply Forall2_app; auto. Qed.
Lemma positive_rev s : positive s -> positive (rev s).
Proof. unfold positive. intros H. rewrite Forall_forall in *. intros x Hx. apply H. rewrite in_rev; auto. Qed.

Lemma flat_range s idx : valid s idx -> 0 <= zdot idx (csuf s) < size s.
Proof.
  intros H. pose proof (valid_positive _ _ H) as P. induction H as [|n i s t Hi H IH]; [unfold zdot, size; simpl; lia|].
  inversion P; subst. specialize (IH ltac:(auto)). change (zdot (i :: t) (csuf (n :: s))) with (i * size s + zdot t (csuf s)).
  rewrite size_cons. pose proof (size_pos s ltac:(auto)). nia.
Qed.

Lemma nd_period s k m : positive s -> nd s (m * size s + k) = nd s k.
Proof.
  intros P. revert m k; induction P as [|n s Hn P IH]; intros m k; [reflexivity|]. unfold nd in *; cbn [csuf combine map fst snd].
  pose proof (size_pos s P). rewrite size_cons. f_equal.
  - replace (m * (n * size s) + k) with (k + (m * n) * size s) by lia. rewrite Z.div_add by lia. apply Z.mod_add; lia.
  - replace (m * (n * size s)) with ((m * n) * size s) by lia. apply IH.
Qed.

Lemma nd_flat s idx : valid s idx -> nd s (zdot idx (csuf s)) = idx.
Proof.
  intros H. pose proof (valid_positive _ _ H) as P. induction H as [|n i s t Hi H IH]; [reflexivity|].
  inversion P; subst. specialize (IH ltac:(auto)). change (zdot (i :: t) (csuf (n :: s))) with (i * size s + zdot t (csuf s)).
  pose proof (flat_range s t H). pose proof (size_pos s ltac:(auto)).
  transitivity (((i * size s + zdot t (csuf s)) / size s) mod n :: nd s (i * size s + zdot t (csuf s))); [reflexivity|].
  rewrite nd_period, IH by auto. f_equal.
  rewrite Z.add_comm, Z.div_add by lia. rewrite Z.div_small by lia. apply Z.mod_small; lia.
Qed.

Lemma nd_valid s k : positive s -> 0 <= k -> valid s (nd s k).
Proof.
  intros P. induction P as [|n s Hn P IH]; intros Hk; [constructor|]. constructor; [|apply IH; auto].
  apply Z.mod_pos_bound; auto.
Qed.

Lemma flat_nd s k : positive s -> 0 <= k < size s -> zdot (nd s k) (csuf s) = k.
Proof.
  intros P. revert k; induction P as [|n s Hn P IH]; intros k Hk; [unfold zdot, size in *; simpl in *; lia|].
  change (zdot (nd (n :: s) k) (csuf (n :: s))) with (((k / size s) mod n) * size s + zdot (nd s k) (csuf s)).
  pose proof (size_pos s P) as Hs. rewrite size_cons in Hk.
  rewrite Z.mod_small. 2:{ split; [apply Z.div_pos; lia|]. apply Z.div_lt_upper_bound; lia. }
  rewrite (Z.div_mod k (size s)) at 2 by lia. rewrite (Z.mul_comm (size s)). rewrite nd_period, IH; auto.
  - pose proof (Z.div_mod k (size s)). lia.
  - apply Z.mod_pos_bound; auto.
Qed.

Lemma range_length n : length (range n) = Z.to_nat n.
Proof. unfold range. rewrite map_length, seq_length; auto. Qed.

Lemma loops_length s : positive s -> Z.of_nat (length (loops s)) = size s.
Proof.
  induction 1 as [|n s Hn P IH]; [reflexivity|]. simpl loops. rewrite size_cons, <- IH.
  assert (G : forall l, length (flat_map (fun i => map (cons i) (loops s)) l) = (length l * length (loops s))%nat).
  { induction l; simpl; auto. rewrite app_length, map_length, IHl; auto. }
  rewrite G, range_length. lia.
Qed.

Lemma nth_flat_map_const {A B} (f : A -> list B) l c i j a b : (forall x, length (f x) = c) -> (j < c)%nat ->
  nth_error l i = Some a -> nth_error (f a) j = Some b -> nth_error (flat_map f l) (i * c + j) = Some b.
Proof.
  intros Hc Hj. revert i; induction l as [|x l IH]; intros [|i] Hi Hb; simpl in *; try discriminate.
  - injection Hi as ->. rewrite nth_error_app1; auto. rewrite Hc; auto.
  - rewrite nth_error_app2 by (rewrite Hc; lia). rewrite Hc. replace (c + i * c + j - c)%nat with (i * c + j)%nat by lia. auto.
Qed.

Lemma loops_nth s idx : valid s idx -> nth_error (loops s) (Z.to_nat (zdot idx (csuf s))) = Some idx.
Proof.
  intros H. pose proof (valid_positive _ _ H) as P. induction H as [|n i s t Hi H IH]; [reflexivity|].
  inversion P; subst. specialize (IH ltac:(auto)). change (zdot (i :: t) (csuf (n :: s))) with (i * size s + zdot t (csuf s)).
  pose proof (flat_range s t H). pose proof (loops_length s ltac:(auto)) as L.
  replace (Z.to_nat (i * size s + zdot t (csuf s))) with (Z.to_nat i * length (loops s) + Z.to_nat (zdot t (csuf s)))%nat.
  2:{ rewrite <- L. rewrite Z2Nat.inj_add, Z2Nat.inj_mul, Nat2Z.id by nia. reflexivity. }
  simpl loops. apply nth_flat_map_const with (a := i).
  - intros x. apply map_length.
  - lia.
  - unfold range. rewrite nth_error_map. rewrite (nth_error_nth' _ 0%nat) by (rewrite seq_length; lia).
    simpl. rewrite seq_nth by lia. f_equal. lia.
  - rewrite nth_error_map, IH. reflexivity.
Qed.

Theorem to1d_tond shape o k : (2 <= length shape)%nat -> positive shape -> 0 <= k < size shape ->
  exists idx, tond shape o k = Ok idx /\ valid shape idx /\ to1d shape o idx = Ok k.
Proof.
  intros L P Hk. destruct o.
  - exists (nd shape k). rewrite tond_C, to1d_C, flat_nd by auto. split; auto. split; auto. apply nd_valid; auto; lia.
  - exists (rev (nd (rev shape) k)).
    assert (V : valid shape (rev (nd (rev shape) k))).
    { rewrite <- (rev_involutive shape) at 1. apply valid_rev, nd_valid; [apply positive_rev; auto|lia]. }
    rewrite tond_F, to1d_F; auto; [|apply valid_length; auto].
    rewrite rev_involutive, flat_nd; auto using positive_rev. rewrite size_rev; auto.
Qed.

Theorem tond_to1d shape o idx : (2 <= length shape)%nat -> valid shape idx ->
  exists k, to1d shape o idx = Ok k /\ 0 <= k < size shape /\ tond shape o k = Ok idx.
Proof.
  intros L V. destruct o.
  - exists (zdot idx (csuf shape)). rewrite to1d_C, tond_C, nd_flat by auto. auto using flat_range.
  - exists (zdot (rev idx) (csuf (rev shape))). rewrite to1d_F, tond_F; auto; [|apply valid_length; auto].
    rewrite nd_flat by (apply valid_rev; auto). rewrite rev_involutive. split; auto. split; auto.
    rewrite <- (size_rev shape). apply flat_range, valid_rev; auto.
Qed.

Theorem to1d_visit shape o idx : (2 <= length shape)%nat -> valid shape idx ->
  exists k, to1d shape o idx = Ok k /\ nth_error (visit o shape) (Z.to_nat k) = Some idx.
Proof.
  intros L V. destruct o; simpl visit.
  - exists (zdot idx (csuf shape)). rewrite to1d_C by auto. auto using loops_nth.
  - exists (zdot (rev idx) (csuf (rev shape))). rewrite to1d_F; auto; [|apply valid_length; auto]. split; auto.
    rewrite nth_error_map, loops_nth by (apply valid_rev; auto). simpl. rewrite rev_involutive; auto.
Qed.

Theorem visit_all shape o idx : positive shape -> In idx (visit o shape) <-> valid shape idx.
Proof.
  assert (G : forall s idx, positive s -> In idx (loops s) <-> valid s idx).
  { induction s as [|n s IH]; intros i P; simpl.
    - split; [intros [<-|[]]; constructor|]. intros H; inversion H; auto.
    - inversion P; subst. rewrite in_flat_map. split.
      + intros (x & Hx & Hi). apply in_map_iff in Hi as (t & <- & Ht). constructor; [|apply IH; auto].
        unfold range in Hx. apply in_map_iff in Hx as (m & <- & Hm). apply in_seq in Hm. lia.
      + intros H. inversion H; subst. exists y. split; [|apply in_map, IH; auto].
        unfold range. apply in_map_iff. exists (Z.to_nat y). split; [lia|]. apply in_seq. lia. }
  intros P. destruct o; simpl; [auto|]. rewrite in_map_iff. split.
  - intros (t & <- & Ht). apply G in Ht; auto using positive_rev. apply valid_rev in Ht. rewrite rev_involutive in Ht; auto.
  - intros V. exists (rev idx). rewrite rev_involutive. split; auto. apply G; auto using positive_rev, valid_rev.
Qed.
Theorem visit_length shape o : positive shape -> Z.of_nat (length (visit o shape)) = size shape.
Proof.
  intros P. destruct o; simpl; [apply loops_length; auto|]. rewrite map_length, loops_length, size_rev; auto using positive_rev.
Qed.
