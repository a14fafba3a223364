(** Proofs about block operators (C16-C19). *)
From Verif Require Import Base Algebra SeqModel BlockModel BlockSpec.

(** ** Lists *)
Lemma set_nth_app {T} (u : list T) x v y : set_nth (u ++ x :: v) (length u) y = u ++ y :: v.
Proof.
  unfold set_nth. rewrite firstn_app, firstn_all, Nat.sub_diag, skipn_app, skipn_all, Nat.sub_diag. cbn [firstn skipn app].
  rewrite app_nil_r. reflexivity.
Qed.
Lemma insert_app {T} (u v : list T) y : insert (length u) y (u ++ v) = u ++ y :: v.
Proof.
  unfold insert. rewrite firstn_app, firstn_all, Nat.sub_diag, skipn_app, skipn_all, Nat.sub_diag. cbn [firstn skipn app].
  rewrite app_nil_r. reflexivity.
Qed.
Lemma remove_at_app {T} (u v : list T) y : remove_at (length u) (u ++ y :: v) = u ++ v.
Proof.
  unfold remove_at. rewrite firstn_app, firstn_all, Nat.sub_diag. cbn [firstn app]. rewrite app_nil_r.
  replace (S (length u)) with (length (u ++ [y])) by (rewrite app_length; cbn; lia).
  replace (u ++ y :: v) with ((u ++ [y]) ++ v) by (rewrite <- app_assoc; reflexivity).
  rewrite skipn_app, skipn_all, Nat.sub_diag. reflexivity.
Qed.
Lemma nth_app_at {T} (u v : list T) y d : nth (length u) (u ++ y :: v) d = y.
Proof. rewrite app_nth2, Nat.sub_diag; [reflexivity|lia]. Qed.
Lemma at_split {T} (l : list T) a : a < length l -> exists u x v, l = u ++ x :: v /\ length u = a.
Proof.
  intros H. destruct (nth_error l a) as [x|] eqn:E.
  - destruct (nth_error_split l a E) as (u & v & -> & <-). eauto.
  - apply nth_error_None in E. lia.
Qed.

Lemma Forall2_length {X Y} (R : X -> Y -> Prop) l l' : Forall2 R l l' -> length l = length l'.
Proof. induction 1; cbn; auto. Qed.
Lemma inside_app s s' i i' : length s = length i -> inside (s ++ s') (i ++ i') <-> inside s i /\ inside s' i'.
Proof.
  intros H. unfold inside. split.
  - intros HF. apply Forall2_app_inv_l in HF as (l & l' & H1 & H2 & E).
    assert (length l = length i) by (rewrite <- H; symmetry; eapply Forall2_length; eauto).
    assert (l = i /\ l' = i') as [-> ->]; auto.
    clear - E H0. revert l E H0. induction i as [|a i IH]; intros [|b l] E H; cbn in *; try lia; auto.
    injection E as <- E. destruct (IH l E ltac:(lia)) as [-> ->]. auto.
  - intros [H1 H2]. apply Forall2_app; auto.
Qed.
Lemma inside_length s i : inside s i -> length i = length s.
Proof. intros H. symmetry. eapply Forall2_length; eauto. Qed.
Lemma inside_split u n v idx : inside (u ++ n :: v) idx ->
  exists i j l, idx = i ++ j :: l /\ inside u i /\ j < n /\ inside v l /\ length i = length u.
Proof.
  intros H. assert (Hl := inside_length _ _ H). rewrite app_length in Hl; cbn in Hl.
  destruct (at_split idx (length u) ltac:(lia)) as (i & j & l & -> & Hi).
  apply inside_app in H; [|lia]. destruct H as [H1 H2]. inversion H2; subst. exists i, j, l. auto.
Qed.
Lemma inside_mid u n v i j l : length i = length u -> inside (u ++ n :: v) (i ++ j :: l) <-> inside u i /\ j < n /\ inside v l.
Proof.
  intros H. rewrite inside_app by lia. unfold inside at 2. split.
  - intros [H1 H2]. inversion H2; subst; auto.
  - intros (H1 & H2 & H3). split; auto.
Qed.
Lemma inside_app_split u v idx : inside (u ++ v) idx -> exists i l, idx = i ++ l /\ inside u i /\ inside v l /\ length i = length u.
Proof.
  intros H. assert (Hl := inside_length _ _ H). rewrite app_length in Hl.
  exists (firstn (length u) idx), (skipn (length u) idx). rewrite firstn_skipn.
  rewrite <- (firstn_skipn (length u) idx) in H.
  assert (length (firstn (length u) idx) = length u) by (rewrite firstn_length; lia).
  apply inside_app in H; [|lia]. destruct H. auto.
Qed.

(** ** Indexing with the slices of a partition *)
Lemma filter_All n : filter (fun s => negb (is_ell s)) (repeat All n) = repeat All n.
Proof. induction n; cbn; congruence. Qed.
Lemma flat_All n k : flat_map (fun s => match s with Ell => repeat All k | s => [s] end) (repeat All n) = repeat All n.
Proof. induction n; cbn; congruence. Qed.

Lemma position_lt ax n a : position ax n = Some a -> a < n.
Proof.
  unfold position. cbv zeta. set (i := if (0 <=? axis_value ax)%Z then _ else _).
  destruct ((0 <=? i)%Z && (i <? Z.of_nat n)%Z) eqn:E; [|discriminate].
  apply andb_true_iff in E as [E1 E2]. apply Z.leb_le in E1. apply Z.ltb_lt in E2. intros [= <-]. lia.
Qed.

Lemma expand_slice ax n a item : position ax n = Some a -> is_ell item = false ->
  expand n (set_nth (template (axis_value ax)) (py_pos (template (axis_value ax)) (axis_value ax)) item)
  = Ok (repeat All a ++ item :: repeat All (n - S a)).
Proof.
  unfold position, template, py_pos. cbv zeta. set (v := axis_value ax). clearbody v. intros H Hi.
  destruct (0 <=? v)%Z eqn:E; [apply Z.leb_le in E|apply Z.leb_gt in E].
  - destruct ((0 <=? v)%Z && (v <? Z.of_nat n)%Z) eqn:E2; [|discriminate]. injection H as <-.
    apply andb_true_iff in E2 as [_ E2]. apply Z.ltb_lt in E2.
    set (a := Z.to_nat v). assert (Ha : a < n) by (unfold a; lia). clearbody a. clear - Ha Hi.
    replace (set_nth (repeat All (S a) ++ [Ell]) a item) with (repeat All a ++ item :: [Ell]).
    2:{ replace (S a) with (a + 1) by lia. rewrite repeat_app, <- app_assoc. cbn [repeat app].
        pose proof (set_nth_app (repeat All a) All [Ell] item) as E. rewrite repeat_length in E. auto. }
    unfold expand. rewrite filter_app, filter_All. cbn [filter]. rewrite Hi. cbn [negb is_ell]. rewrite app_length, repeat_length. cbn [length].
    destruct (Nat.ltb_spec n (a + 1)); [lia|]. f_equal. rewrite flat_map_app, flat_All. cbn [flat_map].
    rewrite app_nil_r. replace (n - (a + 1)) with (n - S a) by lia. destruct item; try discriminate Hi; reflexivity.
  - destruct ((0 <=? v + Z.of_nat n)%Z && (v + Z.of_nat n <? Z.of_nat n)%Z) eqn:E2; [|discriminate]. injection H as <-.
    apply andb_true_iff in E2 as [E2 _]. apply Z.leb_le in E2.
    remember (Z.to_nat (- v)) as b eqn:Hb.
    replace (Z.to_nat (v + Z.of_nat n)) with (n - b) by lia. assert (0 < b <= n) by lia. clear - H Hi.
    destruct b as [|b]; [lia|]. cbn [length repeat].
    replace (S (S (length (repeat All b))) - S b) with 1 by (rewrite repeat_length; lia).
    replace (set_nth (Ell :: All :: repeat All b) 1 item) with (Ell :: item :: repeat All b) by reflexivity.
    unfold expand. cbn [filter]. rewrite Hi, filter_All. cbn [negb is_ell]. cbn [length]. rewrite repeat_length.
    destruct (Nat.ltb_spec n (S b)); [lia|]. f_equal. cbn [flat_map]. rewrite flat_All.
    replace (n - S (n - S b)) with b by lia. destruct item; try discriminate Hi; reflexivity.
Qed.

Lemma subshape_All l : subshape (repeat All (length l)) l = Ok l.
Proof. induction l; cbn; auto. rewrite IHl. reflexivity. Qed.
Lemma subshape_mid u n v item : is_ell item = false ->
  subshape (repeat All (length u) ++ item :: repeat All (length v)) (u ++ n :: v)
  = match item with
    | At k => if Nat.ltb k n then Ok (u ++ v) else Raise IndexError
    | Rng lo hi => Ok (u ++ (Nat.min hi n - Nat.min lo n) :: v)
    | _ => Ok (u ++ n :: v)
    end.
Proof.
  intros Hi. induction u as [|m u IH]; cbn [length repeat app subshape].
  - destruct item; try discriminate Hi; rewrite subshape_All; reflexivity.
  - rewrite IH. destruct item; try discriminate Hi; try reflexivity. destruct (Nat.ltb k n); reflexivity.
Qed.
Lemma locate_All n l : length l = n -> locate (repeat All n) l = l.
Proof. intros <-. induction l; cbn; congruence. Qed.
Lemma locate_rng i j l lo hi : locate (repeat All (length i) ++ Rng lo hi :: repeat All (length l)) (i ++ j :: l) = i ++ (lo + j) :: l.
Proof. induction i; cbn; [rewrite locate_All; auto|congruence]. Qed.
Lemma locate_at i l k : locate (repeat All (length i) ++ At k :: repeat All (length l)) (i ++ l) = i ++ k :: l.
Proof. induction i; cbn; [rewrite locate_All; auto|congruence]. Qed.
Lemma find_All n l : length l = n -> find (repeat All n) l = Some l.
Proof. intros <-. induction l; cbn; auto. rewrite IHl. reflexivity. Qed.
Lemma find_rng i j l lo hi : find (repeat All (length i) ++ Rng lo hi :: repeat All (length l)) (i ++ j :: l)
  = if Nat.leb lo j && Nat.ltb j hi then Some (i ++ (j - lo) :: l) else None.
Proof.
  induction i; cbn -[Nat.leb Nat.ltb].
  - destruct (Nat.leb lo j && Nat.ltb j hi); auto. rewrite find_All; auto.
  - rewrite IHi. destruct (Nat.leb lo j && Nat.ltb j hi); auto.
Qed.
Lemma find_at i j l k : find (repeat All (length i) ++ At k :: repeat All (length l)) (i ++ j :: l)
  = if Nat.eqb j k then Some (i ++ l) else None.
Proof.
  induction i; cbn -[Nat.eqb].
  - destruct (Nat.eqb j k); auto. rewrite find_All; auto.
  - rewrite IHi. destruct (Nat.eqb j k); auto.
Qed.

(** ** Slices *)
Definition item (ax : axis) (dest n : nat) : sel := match ax with NewAxis _ => At dest | Axis _ => Rng dest (dest + n) end.
Definition slice (ax : axis) (dest n : nat) : list sel :=
  set_nth (template (axis_value ax)) (py_pos (template (axis_value ax)) (axis_value ax)) (item ax dest n).

Lemma slices_length ax p : forall dest, length (slices_from ax dest p) = length p.
Proof. induction p; intros; cbn; auto. Qed.
Lemma slices_nth ax p : forall dest k, k < length p ->
  nth k (slices_from ax dest p) [] = slice ax (dest + offset p k) (nth k p 0).
Proof.
  induction p as [|n p IH]; intros dest k Hk; cbn in Hk; [lia|].
  destruct k as [|k]; cbn [slices_from nth offset firstn list_sum].
  - unfold slice, offset. cbn. rewrite Nat.add_0_r. reflexivity.
  - rewrite IH by lia. unfold offset. cbn [firstn list_sum fold_right]. rewrite Nat.add_assoc. reflexivity.
Qed.
Lemma slices_cons ax dest n p : slices_from ax dest (n :: p) = slice ax dest n :: slices_from ax (dest + n) p.
Proof. reflexivity. Qed.

(** A slice is valid when it lies in the dimension (and has size one for a new axis). *)
Definition fits (ax : axis) (dest n dim : nat) : Prop :=
  match ax with Axis _ => dest + n <= dim | NewAxis _ => dest < dim /\ n = 1 end.

Lemma aeq_refl {A} (x : array A) : aeq x x.
Proof. split; auto. Qed.
Lemma aeq_sym {A} (x y : array A) : aeq x y -> aeq y x.
Proof. intros [H1 H2]. split; auto. intros. symmetry. apply H2. rewrite H1. auto. Qed.
Lemma aeq_trans {A} (x y z : array A) : aeq x y -> aeq y z -> aeq x z.
Proof. intros [H1 H2] [H3 H4]. split; [congruence|]. intros. rewrite H2, H4; auto. congruence. Qed.

Lemma getitem_cut {A} (x : array A) ax a dest n :
  position ax (length (ashape x)) = Some a -> fits ax dest n (nth a (ashape x) 0) ->
  exists y, getitem x (slice ax dest n) = Ok y /\ aeq y (cut ax a dest n x).
Proof.
  intros Hp Hf. assert (Ha := position_lt _ _ _ Hp). destruct x as [shape f]; cbn [ashape] in *.
  unfold getitem, slice. cbn [ashape]. rewrite (expand_slice ax _ a) by (auto; destruct ax; auto). cbn [rbind].
  destruct (at_split shape a Ha) as (u & m & v & -> & Hu). rewrite <- Hu in *.
  rewrite nth_app_at in Hf.
  replace (length (u ++ m :: v) - S (length u)) with (length v) by (rewrite app_length; cbn; lia).
  rewrite subshape_mid by (destruct ax; auto).
  destruct ax as [z|z]; cbn [item fits cut ashape aval] in *.
  - rewrite !Nat.min_l by lia. replace (dest + n - dest) with n by lia. cbn [rbind]. eexists; split; [reflexivity|].
    rewrite set_nth_app. split; cbn [ashape aval]; auto.
    intros idx Hi. apply inside_split in Hi as (i & j & l & -> & H1 & H2 & H3 & H4).
    rewrite <- H4, <- (inside_length v l), locate_rng, set_nth_app, nth_app_at by auto. reflexivity.
  - destruct Hf as [Hf ->]. destruct (Nat.ltb_spec dest m); [|lia]. cbn [rbind]. eexists; split; [reflexivity|].
    rewrite remove_at_app. split; cbn [ashape aval]; auto.
    intros idx Hi. apply inside_app_split in Hi as (i & l & -> & H1 & H2 & H3).
    rewrite <- H3, <- (inside_length v l), locate_at, insert_app by auto. reflexivity.
Qed.

(** Writing a piece. *)
Lemma setitem_cut {A} (out y : array A) ax a dest n :
  position ax (length (ashape out)) = Some a -> fits ax dest n (nth a (ashape out) 0) ->
  ashape y = ashape (cut ax a dest n out) ->
  exists r, setitem out (slice ax dest n) y = Ok r /\ ashape r = ashape out
    /\ aeq (cut ax a dest n r) y
    /\ (forall lo' n', fits ax lo' n' (nth a (ashape out) 0) -> (lo' + n' <= dest \/ dest + n <= lo') ->
        aeq (cut ax a lo' n' r) (cut ax a lo' n' out))
    /\ (forall idx, inside (ashape out) idx -> nth a idx 0 < dest \/ dest + n <= nth a idx 0 -> aval r idx = aval out idx).
Proof.
  intros Hp Hf Hy. assert (Ha := position_lt _ _ _ Hp). destruct out as [shape f]; cbn [ashape] in *.
  unfold setitem, slice. cbn [ashape]. rewrite (expand_slice ax _ a) by (auto; destruct ax; auto). cbn [rbind].
  destruct (at_split shape a Ha) as (u & m & v & -> & Hu). subst a. rewrite nth_app_at in *.
  replace (length (u ++ m :: v) - S (length u)) with (length v) by (rewrite app_length; cbn; lia).
  rewrite subshape_mid by (destruct ax; auto).
  destruct ax as [z|z]; cbn [item fits cut ashape aval] in *.
  - rewrite !Nat.min_l by lia. replace (dest + n - dest) with n by lia. cbn [rbind].
    rewrite set_nth_app in *. unfold shape_eqb. rewrite Hy. destruct (list_eq_dec _ _ _) as [_|N]; [|congruence].
    eexists; split; [reflexivity|]. cbn [ashape aval]. split; auto. split; [|split].
    + split; cbn [ashape aval]; rewrite ?set_nth_app; [auto|].
      intros idx Hi. apply inside_split in Hi as (i & j & l & -> & H1 & H2 & H3 & H4).
      rewrite <- H4, <- (inside_length v l) by auto. rewrite set_nth_app, nth_app_at, find_rng.
      destruct (Nat.leb_spec dest (dest + j)); [|lia]. destruct (Nat.ltb_spec (dest + j) (dest + n)); [|lia]. cbn [andb].
      do 3 f_equal; lia.
    + intros lo' n' Hf' Hd. split; cbn [ashape aval]; rewrite ?set_nth_app; [reflexivity|].
      intros idx Hi. apply inside_split in Hi as (i & j & l & -> & H1 & H2 & H3 & H4).
      rewrite <- H4, <- (inside_length v l) by auto. rewrite set_nth_app, nth_app_at, find_rng.
      destruct (Nat.leb_spec dest (lo' + j)); auto. destruct (Nat.ltb_spec (lo' + j) (dest + n)); auto. lia.
    + intros idx Hi Hd. apply inside_split in Hi as (i & j & l & -> & H1 & H2 & H3 & H4).
      rewrite <- H4 in Hd. rewrite nth_app_at in Hd. rewrite <- H4, <- (inside_length v l), find_rng by auto.
      destruct (Nat.leb_spec dest j); auto. destruct (Nat.ltb_spec j (dest + n)); auto. lia.
  - destruct Hf as [Hf ->]. destruct (Nat.ltb_spec dest m); [|lia]. cbn [rbind].
    rewrite remove_at_app in *. unfold shape_eqb. rewrite Hy. destruct (list_eq_dec _ _ _) as [_|N]; [|congruence].
    eexists; split; [reflexivity|]. cbn [ashape aval]. split; auto. split; [|split].
    + split; cbn [ashape aval]; rewrite ?remove_at_app; [auto|].
      intros idx Hi. apply inside_app_split in Hi as (i & l & -> & H1 & H2 & H3).
      rewrite <- H3, <- (inside_length v l) by auto. rewrite insert_app, find_at, Nat.eqb_refl. reflexivity.
    + intros lo' n' [Hf' ->] Hd. split; cbn [ashape aval]; rewrite remove_at_app; [reflexivity|].
      intros idx Hi. apply inside_app_split in Hi as (i & l & -> & H1 & H2 & H3).
      rewrite <- H3, <- (inside_length v l) by auto. rewrite insert_app, find_at.
      destruct (Nat.eqb_spec lo' dest); auto. lia.
    + intros idx Hi Hd. apply inside_split in Hi as (i & j & l & -> & H1 & H2 & H3 & H4).
      rewrite <- H4 in Hd. rewrite nth_app_at in Hd. rewrite <- H4, <- (inside_length v l), find_at by auto.
      destruct (Nat.eqb_spec j dest); auto. lia.
Qed.

(** ** Tiles *)
Lemma sum_firstn_nth p k : k < length p -> offset p k + nth k p 0 <= list_sum p.
Proof.
  revert k. unfold offset. induction p as [|n p IH]; intros k Hk; cbn in Hk; [lia|].
  destruct k; cbn [firstn nth list_sum fold_right]; [cbn; lia|]. specialize (IH k ltac:(lia)). unfold list_sum in IH. lia.
Qed.
Lemma offset_ones m k : k <= m -> offset (repeat 1 m) k = k.
Proof.
  unfold offset. revert k; induction m; intros [|k] H; cbn; auto; try lia. f_equal. apply IHm. lia.
Qed.
Lemma partitioned_fits ax p shape a k :
  partitioned ax p shape a -> k < length p -> fits ax (offset p k) (nth k p 0) (nth a shape 0).
Proof.
  intros [_ H] Hk. destruct ax; cbn.
  - rewrite <- H. apply sum_firstn_nth; auto.
  - rewrite H in Hk |- *. rewrite repeat_length in Hk. rewrite offset_ones by lia. split; auto.
    rewrite (nth_indep _ 0 1) by (rewrite repeat_length; auto). apply nth_repeat.
Qed.
Lemma list_sum_cons n p : list_sum (n :: p) = n + list_sum p.
Proof. reflexivity. Qed.
Lemma offset_cons n p k : offset (n :: p) (S k) = n + offset p k.
Proof. reflexivity. Qed.
Lemma offset_0 p : offset p 0 = 0.
Proof. reflexivity. Qed.
Lemma offset_succ p k : k < length p -> offset p (S k) = offset p k + nth k p 0.
Proof.
  revert k; induction p as [|n p IH]; intros [|k] H; cbn [length] in H; try lia.
  - rewrite offset_cons, !offset_0. cbn. lia.
  - rewrite !offset_cons, IH by lia. cbn. lia.
Qed.
Lemma offset_mono p k k' : k <= k' -> offset p k <= offset p k'.
Proof.
  unfold offset. revert k k'; induction p as [|n p IH]; intros [|k] [|k'] H; cbn; try lia.
  specialize (IH k k' ltac:(lia)). unfold list_sum in IH. lia.
Qed.
Lemma offset_before p k k' : k < k' -> k' <= length p -> offset p k + nth k p 0 <= offset p k'.
Proof. intros H H'. rewrite <- offset_succ by lia. apply offset_mono. lia. Qed.
Lemma list_sum_ones m : list_sum (repeat 1 m) = m.
Proof. induction m; cbn; auto. Qed.
Lemma partitioned_sum ax p shape a : partitioned ax p shape a -> list_sum p = nth a shape 0.
Proof. intros [_ H]. destruct ax; auto. rewrite H at 1. apply list_sum_ones. Qed.
Lemma covered p : forall j, j < list_sum p -> exists k, k < length p /\ offset p k <= j < offset p k + nth k p 0.
Proof.
  induction p as [|n p IH]; intros j Hj; cbn in Hj; [lia|].
  destruct (Nat.lt_ge_cases j n) as [H|H].
  - exists 0. cbn. lia.
  - destruct (IH (j - n)) as (k & Hk & H1); [unfold list_sum; lia|].
    exists (S k). unfold offset in *. cbn [length firstn list_sum fold_right nth]. unfold list_sum in H1. lia.
Qed.

Definition glob (ax : axis) (a lo : nat) (idx : list nat) : list nat :=
  match ax with Axis _ => set_nth idx a (lo + nth a idx 0) | NewAxis _ => insert a lo idx end.
Definition pshape (ax : axis) (a n : nat) (shape : list nat) : list nat :=
  match ax with Axis _ => set_nth shape a n | NewAxis _ => remove_at a shape end.
Lemma cut_shape {A} ax a lo n (x : array A) : ashape (cut ax a lo n x) = pshape ax a n (ashape x).
Proof. destruct ax; reflexivity. Qed.
Lemma cut_val {A} ax a lo n (x : array A) idx : aval (cut ax a lo n x) idx = aval x (glob ax a lo idx).
Proof. destruct ax; reflexivity. Qed.

Lemma glob_inside ax a lo n shape idx : a < length shape -> fits ax lo n (nth a shape 0) ->
  inside (pshape ax a n shape) idx -> inside shape (glob ax a lo idx).
Proof.
  intros Ha Hf H. destruct (at_split shape a Ha) as (u & m & v & -> & <-). rewrite nth_app_at in Hf.
  destruct ax; cbn [pshape glob fits] in *.
  - rewrite set_nth_app in H. apply inside_split in H as (i & j & l & -> & H1 & H2 & H3 & H4).
    rewrite <- H4, set_nth_app, nth_app_at. apply inside_mid; auto. repeat split; auto; lia.
  - rewrite remove_at_app in H. apply inside_app_split in H as (i & l & -> & H1 & H2 & H3).
    rewrite <- H3, insert_app. apply inside_mid; auto. repeat split; auto; lia.
Qed.

(** An index of the array is in the piece that covers it. *)
Lemma glob_onto ax a shape idx lo n : a < length shape -> inside shape idx -> fits ax lo n (nth a shape 0) ->
  lo <= nth a idx 0 < lo + n ->
  exists idx', inside (pshape ax a n shape) idx' /\ glob ax a lo idx' = idx.
Proof.
  intros Ha H Hf Hj. destruct (at_split shape a Ha) as (u & m & v & -> & <-). rewrite nth_app_at in Hf.
  apply inside_split in H as (i & j & l & -> & H1 & H2 & H3 & H4). rewrite <- H4 in Hj. rewrite nth_app_at in Hj.
  destruct ax; cbn [pshape glob fits] in *.
  - exists (i ++ (j - lo) :: l). rewrite set_nth_app. split.
    + apply inside_mid; auto. repeat split; auto; lia.
    + rewrite <- H4, set_nth_app, nth_app_at. do 2 f_equal. lia.
  - exists (i ++ l). rewrite remove_at_app. split.
    + apply inside_app; auto.
    + rewrite <- H4, insert_app. do 2 f_equal. lia.
Qed.

Lemma pieces_eq {A} ax a p (x y : array A) : partitioned ax p (ashape x) a -> ashape x = ashape y ->
  (forall k, k < length p -> aeq (piece ax a p k x) (piece ax a p k y)) -> aeq x y.
Proof.
  intros HP Hs H. split; auto. intros idx Hi. assert (Ha := position_lt _ _ _ (proj1 HP)).
  destruct (covered p (nth a idx 0)) as (k & Hk & Hj).
  { rewrite (partitioned_sum _ _ _ _ HP). unfold inside in Hi.
    destruct (at_split (ashape x) a Ha) as (u & m & v & E & Hu). rewrite E in *.
    apply inside_split in Hi as (i & j & l & -> & H1 & H2 & H3 & H4). rewrite <- Hu, nth_app_at, <- H4, nth_app_at. auto. }
  destruct (glob_onto ax a (ashape x) idx _ _ Ha Hi (partitioned_fits _ _ _ _ _ HP Hk) Hj) as (idx' & H1 & <-).
  destruct (H k Hk) as [_ HH]. unfold piece in HH. rewrite <- !(cut_val ax a _ (nth k p 0)). apply HH. rewrite cut_shape. auto.
Qed.

(** Permutations *)
Lemma flat_map_app_perm {X Y} (f g : X -> list Y) l :
  Permutation (flat_map (fun x => f x ++ g x) l) (flat_map f l ++ flat_map g l).
Proof.
  induction l as [|x l IH]; cbn; auto. rewrite IH. rewrite <- !app_assoc. apply Permutation_app_head.
  rewrite !app_assoc. apply Permutation_app_tail. apply Permutation_app_comm.
Qed.
Lemma flat_map_swap {X Y Z} (f : X -> Y -> list Z) l l' :
  Permutation (flat_map (fun x => flat_map (f x) l') l) (flat_map (fun y => flat_map (fun x => f x y) l) l').
Proof.
  induction l as [|x l IH]; cbn.
  - induction l'; cbn; auto.
  - rewrite IH. symmetry. apply flat_map_app_perm.
Qed.
Lemma flat_map_perm {X Y} (f g : X -> list Y) l : (forall x, In x l -> Permutation (f x) (g x)) ->
  Permutation (flat_map f l) (flat_map g l).
Proof. induction l; cbn; intros H; auto. apply Permutation_app; auto. Qed.
Lemma map_flat_map {X Y Z} (g : Y -> Z) (f : X -> list Y) l : map g (flat_map f l) = flat_map (fun x => map g (f x)) l.
Proof. induction l; cbn; auto. rewrite map_app. congruence. Qed.
Lemma flat_map_map {X Y Z} (g : Y -> list Z) (f : X -> Y) l : flat_map g (map f l) = flat_map (fun x => g (f x)) l.
Proof. induction l; cbn; congruence. Qed.
Lemma flat_map_ext_in {X Y} (f g : X -> list Y) l : (forall x, In x l -> f x = g x) -> flat_map f l = flat_map g l.
Proof. induction l; cbn; intros H; auto. rewrite H, IHl; auto. Qed.

Lemma in_indices shape idx : In idx (indices shape) <-> inside shape idx.
Proof.
  revert idx; induction shape as [|n s IH]; intros idx; cbn [indices].
  - split. { intros [<-|[]]. constructor. } intros H. inversion H. left; auto.
  - rewrite in_flat_map. split.
    + intros (i & Hi & H). apply in_map_iff in H as (l & <- & Hl). apply in_seq in Hi. constructor; [lia|]. apply IH; auto.
    + intros H. inversion H as [|? i ? l H1 H2]; subst. exists i. split; [apply in_seq; lia|]. apply in_map_iff. exists l. split; auto.
      apply IH; auto.
Qed.

Lemma indices_insert u n v :
  Permutation (indices (u ++ n :: v)) (flat_map (fun j => map (insert (length u) j) (indices (u ++ v))) (seq 0 n)).
Proof.
  induction u as [|m u IH]; cbn [app indices length].
  - apply Permutation_refl.
  - rewrite (flat_map_perm _ (fun i => flat_map (fun j => map (cons i) (map (insert (length u) j) (indices (u ++ v)))) (seq 0 n))).
    2:{ intros i _. rewrite <- map_flat_map. apply Permutation_map. apply IH. }
    rewrite flat_map_swap. apply flat_map_perm. intros j _. rewrite map_flat_map.
    apply flat_map_perm. intros i _. rewrite !map_map. apply Permutation_refl.
Qed.

Lemma seq_from d n : seq d n = map (Nat.add d) (seq 0 n).
Proof.
  revert d; induction n; intros d; auto. rewrite !seq_S, map_app, IHn. reflexivity.
Qed.
Lemma selected_slice ax u m v dest n : position ax (length (u ++ m :: v)) = Some (length u) -> fits ax dest n m ->
  Permutation (selected (u ++ m :: v) (slice ax dest n))
    (flat_map (fun j => map (insert (length u) j) (indices (u ++ v))) (seq dest n)).
Proof.
  intros Hp Hf. unfold selected, slice. rewrite (expand_slice ax _ (length u)) by (auto; destruct ax; auto).
  replace (length (u ++ m :: v) - S (length u)) with (length v) by (rewrite app_length; cbn; lia).
  rewrite subshape_mid by (destruct ax; auto). destruct ax; cbn [item fits] in *.
  - rewrite !Nat.min_l by lia. replace (dest + n - dest) with n by lia.
    rewrite (Permutation_map _ (indices_insert u n v)). rewrite map_flat_map.
    rewrite (seq_from dest n), flat_map_map. apply flat_map_perm. intros j _. rewrite map_map.
    erewrite map_ext_in; [apply Permutation_refl|]. intros idx Hi. cbv beta.
    apply in_indices in Hi. apply inside_app_split in Hi as (i & l & -> & H1 & H2 & H3).
    rewrite <- H3, !insert_app, <- (inside_length v l), locate_rng by auto. reflexivity.
  - destruct Hf as [Hf ->]. destruct (Nat.ltb_spec dest m); [|lia]. cbn [seq flat_map]. rewrite app_nil_r.
    erewrite map_ext_in; [apply Permutation_refl|]. intros idx Hi. cbv beta.
    apply in_indices in Hi. apply inside_app_split in Hi as (i & l & -> & H1 & H2 & H3).
    rewrite <- H3, !insert_app, <- (inside_length v l), locate_at by auto. reflexivity.
Qed.

Lemma selected_tile ax u m v : position ax (length (u ++ m :: v)) = Some (length u) ->
  forall p dest, dest + list_sum p <= m -> match ax with NewAxis _ => Forall (eq 1) p | _ => True end ->
  Permutation (flat_map (fun j => map (insert (length u) j) (indices (u ++ v))) (seq dest (list_sum p)))
    (flat_map (selected (u ++ m :: v)) (slices_from ax dest p)).
Proof.
  intros Hp. induction p as [|n p IH]; intros dest Hd H1; [apply Permutation_refl|].
  rewrite slices_cons. cbn [flat_map]. change (list_sum (n :: p)) with (n + list_sum p) in *. rewrite seq_app, flat_map_app.
  apply Permutation_app.
  - symmetry. apply selected_slice; auto. destruct ax; cbn; [lia|]. inversion H1; subst. lia.
  - apply IH; [lia|]. destruct ax; auto. inversion H1; auto.
Qed.

Theorem tile ax p shape a : partitioned ax p shape a ->
  Permutation (indices shape) (flat_map (selected shape) (get_slices p ax)).
Proof.
  intros HP. assert (HS := partitioned_sum _ _ _ _ HP). destruct HP as [Hp Ht].
  destruct (at_split shape a (position_lt _ _ _ Hp)) as (u & m & v & -> & <-). rewrite nth_app_at in *.
  rewrite indices_insert. rewrite <- HS at 1. apply selected_tile; [auto|lia|]. destruct ax; auto. rewrite Ht.
  apply Forall_forall. intros x Hx. apply repeat_spec in Hx. auto.
Qed.

(** The pieces as index sets. *)
Lemma glob_slice ax u m v dest n : fits ax dest n m ->
  Permutation (map (glob ax (length u) dest) (indices (pshape ax (length u) n (u ++ m :: v))))
    (flat_map (fun j => map (insert (length u) j) (indices (u ++ v))) (seq dest n)).
Proof.
  intros Hf. destruct ax; cbn [pshape glob fits] in *.
  - rewrite set_nth_app. rewrite (Permutation_map _ (indices_insert u n v)). rewrite map_flat_map.
    rewrite (seq_from dest n), flat_map_map. apply flat_map_perm. intros j _. rewrite map_map.
    erewrite map_ext_in; [apply Permutation_refl|]. intros idx Hi. cbv beta.
    apply in_indices in Hi. apply inside_app_split in Hi as (i & l & -> & H1 & H2 & H3).
    cbn [glob]. rewrite <- H3, !insert_app, set_nth_app, nth_app_at by auto. reflexivity.
  - destruct Hf as [Hf ->]. rewrite remove_at_app. cbn [seq flat_map]. rewrite app_nil_r. apply Permutation_refl.
Qed.
Lemma glob_tile ax u m v : 
  forall p dest, dest + list_sum p <= m -> match ax with NewAxis _ => Forall (eq 1) p | _ => True end ->
  Permutation (flat_map (fun j => map (insert (length u) j) (indices (u ++ v))) (seq dest (list_sum p)))
    (flat_map (fun k => map (glob ax (length u) (dest + offset p k)) (indices (pshape ax (length u) (nth k p 0) (u ++ m :: v)))) (seq 0 (length p))).
Proof.
  induction p as [|n p IH]; intros dest Hd H1; [apply Permutation_refl|].
  cbn [length]. rewrite <- cons_seq, <- seq_shift. cbn [flat_map]. rewrite flat_map_map. cbn [nth].
  change (list_sum (n :: p)) with (n + list_sum p) in *. rewrite seq_app, flat_map_app.
  apply Permutation_app.
  - unfold offset. cbn [firstn list_sum fold_right]. rewrite Nat.add_0_r. symmetry. apply glob_slice. destruct ax; cbn; [lia|].
    inversion H1; subst. lia.
  - rewrite IH; [|lia|destruct ax; auto; inversion H1; auto]. apply flat_map_perm. intros k _. unfold offset.
    cbn [firstn list_sum fold_right]. rewrite Nat.add_assoc. apply Permutation_refl.
Qed.
Lemma glob_tiles ax p shape a : partitioned ax p shape a ->
  Permutation (indices shape)
    (flat_map (fun k => map (glob ax a (offset p k)) (indices (pshape ax a (nth k p 0) shape))) (seq 0 (length p))).
Proof.
  intros HP. assert (HS := partitioned_sum _ _ _ _ HP). destruct HP as [Hp Ht].
  destruct (at_split shape a (position_lt _ _ _ Hp)) as (u & m & v & -> & <-). rewrite nth_app_at in *.
  rewrite indices_insert. rewrite <- HS at 1. apply (glob_tile ax u m v p 0); [lia|]. destruct ax; auto. rewrite Ht.
  apply Forall_forall. intros x Hx. apply repeat_spec in Hx. auto.
Qed.

(** ** Block diagonal operators *)
Lemma known_some p : known (map Some p) = Ok p.
Proof. unfold known. induction p; cbn; auto. rewrite IHp. reflexivity. Qed.

(** Writing all the pieces. *)
Fixpoint write_loop {A} (souts : list (list sel)) (ys : list (array A)) (out : array A) : result (array A) :=
  match souts, ys with
  | s :: souts', y :: ys' => out <- setitem out s y ;; write_loop souts' ys' out
  | _, _ => Ok out
  end.

Lemma write_spec {A} ax a : forall p dest (ys : list (array A)) (out : array A),
  position ax (length (ashape out)) = Some a -> dest + list_sum p <= nth a (ashape out) 0 ->
  match ax with NewAxis _ => Forall (eq 1) p | _ => True end ->
  length ys = length p ->
  (forall k d, k < length p -> ashape (nth k ys d) = pshape ax a (nth k p 0) (ashape out)) ->
  exists r, write_loop (slices_from ax dest p) ys out = Ok r /\ ashape r = ashape out
    /\ (forall k d, k < length p -> aeq (cut ax a (dest + offset p k) (nth k p 0) r) (nth k ys d))
    /\ (forall lo n, fits ax lo n (nth a (ashape out) 0) -> (lo + n <= dest \/ dest + list_sum p <= lo) ->
         aeq (cut ax a lo n r) (cut ax a lo n out))
    /\ (forall idx, inside (ashape out) idx -> nth a idx 0 < dest \/ dest + list_sum p <= nth a idx 0 -> aval r idx = aval out idx).
Proof.
  induction p as [|n p IH]; intros dest ys out Hp Hs H1 Hl Hy.
  - exists out. cbn. repeat split; auto; intros; lia.
  - destruct ys as [|y ys]; [discriminate|]. rewrite slices_cons. cbn [write_loop].
    change (list_sum (n :: p)) with (n + list_sum p) in *.
    assert (Hn : match ax with NewAxis _ => n = 1 /\ Forall (eq 1) p | _ => True end).
    { destruct ax; auto. inversion H1; auto. }
    destruct (setitem_cut out y ax a dest n Hp) as (r1 & E1 & S1 & C1 & D1 & F1).
    { destruct ax; cbn; [lia|]. destruct Hn. lia. }
    { rewrite cut_shape. apply (Hy 0 y). cbn; lia. }
    rewrite E1. cbn [rbind].
    destruct (IH (dest + n) ys r1) as (r & E & S & C & D & F).
    + rewrite S1; auto. 
    + rewrite S1; lia.
    + destruct ax; auto. destruct Hn; auto.
    + cbn in Hl; lia.
    + intros k d Hk. rewrite S1. apply (Hy (Datatypes.S k) d). cbn; lia.
    + exists r. split; [auto|]. split; [congruence|]. rewrite S1 in *. split; [|split].
      * intros k d Hk. destruct k as [|k].
        -- unfold offset; cbn [firstn list_sum fold_right nth]. rewrite Nat.add_0_r. eapply aeq_trans; [|apply C1].
           apply D; [|left; lia]. destruct ax; cbn; [lia|]. destruct Hn; lia.
        -- cbn [length] in Hk. specialize (C k d ltac:(lia)). unfold offset in *. cbn [firstn list_sum fold_right nth].
           rewrite Nat.add_assoc. auto.
      * intros lo m Hf Hd. eapply aeq_trans; [apply D; auto; lia|]. apply D1; auto; lia.
      * intros idx Hi Hd. rewrite F by (auto; lia). apply F1; auto; lia.
Qed.

Lemma ones_of ax p shape a : partitioned ax p shape a -> match ax with NewAxis _ => Forall (eq 1) p | _ => True end.
Proof.
  intros [_ H]. destruct ax; auto. rewrite H. apply Forall_forall. intros x Hx. apply repeat_spec in Hx. auto.
Qed.

(** Reading all the pieces. *)
Lemma read_spec {A} ax a (x : array A) : position ax (length (ashape x)) = Some a ->
  forall p dest, dest + list_sum p <= nth a (ashape x) 0 -> match ax with NewAxis _ => Forall (eq 1) p | _ => True end ->
  exists ys, rmap (getitem x) (slices_from ax dest p) = Ok ys /\ length ys = length p
    /\ forall k d, k < length p -> aeq (nth k ys d) (cut ax a (dest + offset p k) (nth k p 0) x).
Proof.
  intros Hp. induction p as [|n p IH]; intros dest Hs H1.
  - exists []. cbn. repeat split; auto; intros; lia.
  - rewrite slices_cons. cbn [rmap]. rewrite list_sum_cons in Hs.
    assert (Hn : match ax with NewAxis _ => n = 1 /\ Forall (eq 1) p | _ => True end).
    { destruct ax; auto. inversion H1; auto. }
    destruct (getitem_cut x ax a dest n Hp) as (y & E & Hy). { destruct ax; cbn; [lia|]. destruct Hn. lia. }
    rewrite E. cbn [rbind]. destruct (IH (dest + n)) as (ys & E' & Hl & Hys). { lia. } { destruct ax; auto. destruct Hn; auto. }
    rewrite E'. cbn [rbind]. exists (y :: ys). cbn [length]. split; auto. split; auto.
    intros [|k] d Hk; cbn [nth].
    + rewrite offset_0, Nat.add_0_r. auto.
    + rewrite offset_cons, Nat.add_assoc. apply Hys. lia.
Qed.
Lemma reads {A} ax a p (x : array A) : partitioned ax p (ashape x) a ->
  exists ys, rmap (getitem x) (get_slices p ax) = Ok ys /\ length ys = length p
    /\ forall k d, k < length p -> aeq (nth k ys d) (piece ax a p k x).
Proof.
  intros HP. apply (read_spec ax a x (proj1 HP) p 0); [|eapply ones_of; eauto]. rewrite (partitioned_sum _ _ _ _ HP). lia.
Qed.
Lemma writes {A} ax a p (ys : list (array A)) (out : array A) : partitioned ax p (ashape out) a -> length ys = length p ->
  (forall k d, k < length p -> ashape (nth k ys d) = ashape (piece ax a p k out)) ->
  exists r, write_loop (get_slices p ax) ys out = Ok r /\ ashape r = ashape out
    /\ forall k d, k < length p -> aeq (piece ax a p k r) (nth k ys d).
Proof.
  intros HP Hl Hy. destruct (write_spec ax a p 0 ys out (proj1 HP)) as (r & E & S & C & _); auto.
  - rewrite (partitioned_sum _ _ _ _ HP). lia.
  - eapply ones_of; eauto.
  - intros k d Hk. rewrite (Hy k d Hk). unfold piece. rewrite cut_shape. auto.
  - exists r. auto.
Qed.

Lemma diag_loop_write {A} : forall (ks : list (blk A)) sins souts x is out,
  rmap (getitem x) sins = Ok is -> length ks = length sins ->
  diag_loop ks sins souts x out = write_loop souts (zip_with k_fun ks is) out.
Proof.
  induction ks as [|k ks IH]; intros [|sin sins] souts x is out E Hl; try discriminate.
  - destruct souts; reflexivity.
  - cbn [rmap] in E. destruct (getitem x sin) as [i|] eqn:Ei; [|discriminate]. cbn [rbind] in E.
    destruct (rmap (getitem x) sins) as [is'|] eqn:Eis; [|discriminate]. injection E as <-.
    cbn [diag_loop zip_with]. destruct souts as [|sout souts]; [reflexivity|]. rewrite Ei. cbn [rbind write_loop].
    destruct (setitem out sout (k_fun k i)); [|reflexivity]. cbn [rbind]. apply IH; auto.
Qed.
Lemma zip_length {X Y Z} (f : X -> Y -> Z) : forall l l', length l = length l' -> length (zip_with f l l') = length l.
Proof. induction l; intros [|y l'] H; cbn in *; try lia. rewrite IHl; lia. Qed.
Lemma zip_nth {X Y Z} (f : X -> Y -> Z) : forall l l' k b d d', length l = length l' -> nth_error l k = Some b ->
  nth k (zip_with f l l') d = f b (nth k l' d').
Proof.
  induction l; intros [|y l'] [|k] b d d' H E; cbn in *; try lia; try discriminate.
  - injection E as <-. reflexivity.
  - apply IHl; auto.
Qed.
Lemma nth_error_lt {T} (l : list T) k b : nth_error l k = Some b -> k < length l.
Proof. intros H. apply nth_error_Some. congruence. Qed.
Lemma lt_nth_error {T} (l : list T) k : k < length l -> exists b, nth_error l k = Some b.
Proof. intros H. destruct (nth_error l k) eqn:E; eauto. apply nth_error_None in E. lia. Qed.

Lemma py_set_pos l z a n : position (Axis z) (length l) = Some a -> py_set l z n = Ok (set_nth l a n).
Proof.
  unfold position, py_set. cbv zeta. cbn [axis_value]. set (i := if (0 <=? z)%Z then _ else _).
  destruct ((0 <=? i)%Z && (i <? Z.of_nat (length l))%Z) eqn:E; [|discriminate]. intros [= <-].
  apply andb_true_iff in E as [E1 E2]. apply Z.leb_le in E1. apply Z.ltb_lt in E2.
  destruct (Z.ltb_spec i 0); [lia|]. destruct (Z.leb_spec (Z.of_nat (length l)) i); [lia|]. reflexivity.
Qed.
Lemma py_nth_pos l z a : position (Axis z) (length l) = Some a -> py_nth l z = Ok (nth a l 0).
Proof.
  unfold position, py_nth. cbv zeta. cbn [axis_value]. set (i := if (0 <=? z)%Z then _ else _).
  destruct ((0 <=? i)%Z && (i <? Z.of_nat (length l))%Z) eqn:E; [|discriminate]. intros [= <-].
  apply andb_true_iff in E as [E1 E2]. apply Z.leb_le in E1. apply Z.ltb_lt in E2.
  destruct (Z.ltb_spec i 0); [lia|]. rewrite (nth_error_nth' l 0) by lia. reflexivity.
Qed.
Lemma set_nth_length {T} (l : list T) a v : a < length l -> length (set_nth l a v) = length l.
Proof.
  intros H. destruct (at_split l a H) as (u & x & w & -> & <-). rewrite set_nth_app, !app_length. reflexivity.
Qed.
Lemma nth_set_nth (l : list nat) a v : a < length l -> nth a (set_nth l a v) 0 = v.
Proof.
  intros H. destruct (at_split l a H) as (u & x & w & -> & <-). rewrite set_nth_app, nth_app_at. reflexivity.
Qed.

(** The sizes of the output pieces are found again. *)
Lemma partitionout_from {A} axin axout ai ao (x : array A) (outshape : list nat) : 
  position axin (length (ashape x)) = Some ai -> position axout (length outshape) = Some ao ->
  forall (ks : list (blk A)) pi pout po dest, Forall proper ks -> length ks = length pi -> length po = length ks -> announced axin axout pout po ->
  (forall k b, nth_error ks k = Some b ->
     ashape (k_fun b (cut axin ai (dest + offset pi k) (nth k pi 0) x)) = pshape axout ao (nth k po 0) outshape) ->
  diag_partitionout ks (map Some pi) pout axin axout (ashape x) = Ok po.
Proof.
  intros Hi Ho. induction ks as [|b ks IH]; intros [|m pi] pout po dest HP H1 H2 HA HB; try discriminate.
  - destruct po; [|discriminate]. reflexivity.
  - destruct po as [|n po]; [discriminate|]. inversion HA as [|o n' pout' po' H H'']; subst. inversion HP as [|? ? [P1 P2] P3]; subst.
    cbn [map diag_partitionout].
    assert (E : match o with
          | Some n0 => Ok n0
          | None => match axin, axout with
               | Axis ai, Axis ao => s <- py_set (ashape x) ai m ;; py_nth (k_reshapein b s) ao
               | _, _ => Raise TypeError
               end
          end = Ok n).
    { destruct H as [->|(-> & zi & zo & -> & ->)]; auto.
      specialize (HB 0 b eq_refl). rewrite P2 in HB. cbn [cut ashape nth pshape] in HB.
      rewrite (py_set_pos _ _ _ _ Hi). cbn [rbind].
      assert (Hlt := position_lt _ _ _ Ho).
      rewrite HB. rewrite (py_nth_pos _ _ ao); [rewrite nth_set_nth; auto|]. rewrite set_nth_length; auto. }
    rewrite (IH pi pout' po (dest + m)); auto.
    + destruct o; [injection E as ->; reflexivity|]. cbn [rbind] in E |- *. rewrite E. reflexivity.
    + intros k b' Hk. specialize (HB (S k) b' Hk). cbn [nth] in HB. rewrite offset_cons, Nat.add_assoc in HB. auto.
Qed.

Theorem diag_spec {A} (ks : list (blk A)) pi pout po axin axout ai ao (x out : array A) :
  Forall proper ks -> length ks = length pi -> length ks = length po -> announced axin axout pout po ->
  partitioned axin pi (ashape x) ai -> partitioned axout po (ashape out) ao ->
  (forall k b, nth_error ks k = Some b -> ashape (k_fun b (piece axin ai pi k x)) = ashape (piece axout ao po k out)) ->
  exists r, diag_direct ks (map Some pi) pout axin axout x out = Ok r /\ ashape r = ashape out
    /\ forall k b, nth_error ks k = Some b -> aeq (piece axout ao po k r) (k_fun b (piece axin ai pi k x)).
Proof.
  intros HP H1 H2 HA Pi Po HS. unfold diag_direct.
  rewrite (partitionout_from axin axout ai ao x (ashape out) (proj1 Pi) (proj1 Po) ks pi pout po 0); auto.
  2:{ intros k b Hk. cbn [Nat.add]. rewrite <- (cut_shape axout ao (offset po k) (nth k po 0) out). apply (HS k b Hk). }
  cbn [rbind]. rewrite known_some. cbn [rbind].
  destruct (reads axin ai pi x Pi) as (is & E & L & V).
  rewrite (diag_loop_write _ _ _ _ is); [|auto|unfold get_slices; rewrite slices_length; auto].
  assert (Q : forall k b, nth_error ks k = Some b ->
     aeq (nth k (zip_with k_fun ks is) x) (k_fun b (piece axin ai pi k x))).
  { intros k b Hk. rewrite (zip_nth _ _ _ k b x x); [|lia|auto]. 
    assert (Hb : proper b) by (rewrite Forall_forall in HP; apply HP; eapply nth_error_In; eauto).
    apply Hb. apply V. rewrite <- H1. eapply nth_error_lt; eauto. }
  destruct (writes axout ao po (zip_with k_fun ks is) out Po) as (r & Er & Sr & Vr).
  - rewrite zip_length; lia.
  - intros k d Hk. destruct (lt_nth_error ks k) as (b & Hb); [lia|].
    rewrite (nth_indep _ d x) by (rewrite zip_length; lia). rewrite (proj1 (Q k b Hb)). auto.
  - exists r. split; auto. split; auto. intros k b Hb.
    assert (Hk := nth_error_lt _ _ _ Hb). eapply aeq_trans; [apply (Vr k x); lia|]. apply Q; auto.
Qed.

(** In place. *)
Lemma inplace_loop {A} ax a shape : position ax (length shape) = Some a ->
  forall (ks : list (blk A)) p dest mem, Forall proper ks -> length ks = length p ->
  dest + list_sum p <= nth a shape 0 -> match ax with NewAxis _ => Forall (eq 1) p | _ => True end ->
  (forall k b x, nth_error ks k = Some b -> ashape x = pshape ax a (nth k p 0) shape -> ashape (k_fun b x) = ashape x) ->
  exists mem', diag_loop_inplace ks (slices_from ax dest p) (slices_from ax dest p) shape shape mem = Ok mem'
    /\ (forall k b, nth_error ks k = Some b ->
         aeq (cut ax a (dest + offset p k) (nth k p 0) (Arr shape mem')) (k_fun b (cut ax a (dest + offset p k) (nth k p 0) (Arr shape mem))))
    /\ (forall lo n, fits ax lo n (nth a shape 0) -> lo + n <= dest ->
         aeq (cut ax a lo n (Arr shape mem')) (cut ax a lo n (Arr shape mem))).
Proof.
  intros Hp. induction ks as [|b ks IH]; intros [|n p] dest mem HP Hl Hs H1 HB; try discriminate.
  - exists mem. cbn. split; auto. split; [intros [|k] b Hk; discriminate|]. intros; apply aeq_refl.
  - rewrite list_sum_cons in Hs. rewrite slices_cons. cbn [diag_loop_inplace]. inversion HP as [|? ? P1 P2]; subst.
    assert (Hn : match ax with NewAxis _ => n = 1 /\ Forall (eq 1) p | _ => True end).
    { destruct ax; auto. inversion H1; auto. }
    assert (Hf : fits ax dest n (nth a shape 0)). { destruct ax; cbn; [lia|]. destruct Hn. lia. }
    destruct (getitem_cut (Arr shape mem) ax a dest n Hp Hf) as (i & Ei & Hi). rewrite Ei. cbn [rbind].
    destruct (setitem_cut (Arr shape mem) (k_fun b i) ax a dest n Hp Hf) as (r & Er & Sr & Cr & Dr & _).
    { rewrite (HB 0 b i eq_refl); [apply (proj1 Hi)|]. rewrite (proj1 Hi), cut_shape. reflexivity. }
    rewrite Er. cbn [rbind]. cbn [ashape] in Sr.
    destruct (IH p (dest + n) (aval r) P2) as (mem' & E & V & D).
    { cbn in Hl; lia. } { lia. } { destruct ax; auto. destruct Hn; auto. } { intros k b' x Hk. apply (HB (S k) b' x Hk). }
    assert (Hr : Arr shape (aval r) = r) by (destruct r; cbn in *; congruence). rewrite Hr in *.
    exists mem'. split; auto. split.
    + intros [|k] b' Hk; cbn [nth_error nth] in *.
      * injection Hk as <-. rewrite offset_0, Nat.add_0_r. eapply aeq_trans; [apply D; [auto|lia]|].
        eapply aeq_trans; [apply Cr|]. apply P1. auto.
      * rewrite offset_cons, Nat.add_assoc. eapply aeq_trans; [apply V; eauto|].
        assert (Hb : proper b') by (rewrite Forall_forall in P2; apply P2; eapply nth_error_In; eauto).
        apply Hb. apply Dr; [|right; lia].
        assert (Hk' := nth_error_lt _ _ _ Hk). cbn [length] in Hl. cbn [ashape].
        assert (X := sum_firstn_nth p k ltac:(lia)).
        destruct ax; cbn [fits]; [lia|]. destruct Hn as [-> Hn].
        rewrite Forall_forall in Hn. assert (1 = nth k p 0) by (apply Hn, nth_In; lia). lia.
    + intros lo m Hf' Hd. eapply aeq_trans; [apply D; [auto|lia]|]. apply Dr; auto.
Qed.

(** ** Block columns and rows *)
Lemma column_loop_write {A} : forall (ks : list (blk A)) souts x out, length ks = length souts ->
  column_loop ks souts x out = write_loop souts (map (fun b => k_fun b x) ks) out.
Proof.
  induction ks as [|k ks IH]; intros [|s souts] x out Hl; try discriminate; auto.
  cbn [column_loop map write_loop]. destruct (setitem out s (k_fun k x)); [|reflexivity]. cbn [rbind]. apply IH. cbn in Hl; lia.
Qed.
Lemma nth_map_error {X Y} (f : X -> Y) : forall l k b d, nth_error l k = Some b -> nth k (map f l) d = f b.
Proof. induction l; intros [|k] b d E; cbn in *; try discriminate; [injection E as <-; auto|apply IHl; auto]. Qed.

Theorem column_spec {A} (ks : list (blk A)) po axout ao (x out : array A) :
  length ks = length po -> partitioned axout po (ashape out) ao ->
  (forall k b, nth_error ks k = Some b -> ashape (k_fun b x) = ashape (piece axout ao po k out)) ->
  exists r, column_direct ks (map Some po) axout x out = Ok r /\ ashape r = ashape out
    /\ forall k b, nth_error ks k = Some b -> aeq (piece axout ao po k r) (k_fun b x).
Proof.
  intros H1 Po HS. unfold column_direct. rewrite known_some. cbn [rbind].
  rewrite column_loop_write by (unfold get_slices; rewrite slices_length; auto).
  destruct (writes axout ao po (map (fun b => k_fun b x) ks) out Po) as (r & Er & Sr & Vr).
  - rewrite map_length; auto.
  - intros k d Hk. destruct (lt_nth_error ks k) as (b & Hb); [lia|]. rewrite (nth_map_error _ _ _ b) by auto. auto.
  - exists r. split; auto. split; auto. intros k b Hb. assert (Hk := nth_error_lt _ _ _ Hb).
    specialize (Vr k x ltac:(lia)). rewrite (nth_map_error _ _ _ b) in Vr by auto. auto.
Qed.

Fixpoint acc_loop {A} (oper : A -> A -> A) (ys : list (array A)) (out : array A) : result (array A) :=
  match ys with [] => Ok out | y :: ys' => out <- update oper out y ;; acc_loop oper ys' out end.
Lemma acc_spec {A} (oper : A -> A -> A) : forall ys (out : array A), Forall (fun y => ashape y = ashape out) ys ->
  exists r, acc_loop oper ys out = Ok r /\ ashape r = ashape out
    /\ forall idx, aval r idx = fold_left (fun acc z => oper acc (aval z idx)) ys (aval out idx).
Proof.
  induction ys as [|y ys IH]; intros out H.
  - exists out. auto.
  - inversion H as [|? ? H1 H2]; subst. cbn [acc_loop]. unfold update, shape_eqb. rewrite H1.
    destruct (list_eq_dec _ _ _) as [_|N]; [|congruence]. cbn [rbind].
    destruct (IH (Arr (ashape out) (fun idx => oper (aval out idx) (aval y idx)))) as (r & E & S & V); [auto|].
    exists r. split; auto.
Qed.
Lemma row_loop_acc {A} (oper : A -> A -> A) : forall (ks : list (blk A)) sins x is out,
  rmap (getitem x) sins = Ok is -> length ks = length sins ->
  row_loop oper ks sins x out = acc_loop oper (zip_with k_fun ks is) out.
Proof.
  induction ks as [|k ks IH]; intros [|sin sins] x is out E Hl; try discriminate; auto.
  cbn [rmap] in E. destruct (getitem x sin) as [i|] eqn:Ei; [|discriminate]. cbn [rbind] in E.
  destruct (rmap (getitem x) sins) as [is'|] eqn:Eis; [|discriminate]. injection E as <-.
  cbn [row_loop zip_with acc_loop]. rewrite Ei. cbn [rbind].
  destruct (update oper out (k_fun k i)); [|reflexivity]. cbn [rbind]. apply IH; auto.
Qed.
Lemma sum_loop_acc {A} (oper : A -> A -> A) x : forall (ks : list (blk A)) out,
  sum_loop oper ks x out = acc_loop oper (map (fun b => k_fun b x) ks) out.
Proof.
  induction ks as [|k ks IH]; intros out; auto. cbn [sum_loop map acc_loop].
  destruct (update oper out (k_fun k x)); [|reflexivity]. cbn [rbind]. apply IH.
Qed.

Lemma fold_ext {A} (oper : A -> A -> A) idx shape : forall ys zs v, Forall2 aeq ys zs -> Forall (fun y => ashape y = shape) ys -> inside shape idx ->
  fold_left (fun acc z => oper acc (aval z idx)) ys v = fold_left (fun acc z => oper acc (aval z idx)) zs v.
Proof.
  induction ys as [|y ys IH]; intros zs v H HS Hi; inversion H as [|? z ? zs' [E1 E2] H']; subst; auto.
  cbn [fold_left]. inversion HS; subst. rewrite E2 by auto. apply IH; auto.
Qed.
Lemma total_ext {A} (oper : A -> A -> A) idx shape ys zs d : Forall2 aeq ys zs -> Forall (fun y => ashape y = shape) ys -> inside shape idx ->
  total oper ys idx d = total oper zs idx d.
Proof.
  intros H HS Hi. destruct H as [|y z ys zs [E1 E2] H]; auto. cbn [total]. inversion HS; subst. rewrite E2 by auto.
  eapply fold_ext; eauto.
Qed.

Lemma outputs_length {A} ax a p (ks : list (blk A)) x : length (block_outputs ax a p ks x) = length ks.
Proof. unfold block_outputs. rewrite map_length, combine_length, seq_length. lia. Qed.
Lemma outputs_from {A} ax a p (x : array A) : forall (ks : list (blk A)) n k b d, nth_error ks k = Some b ->
  nth k (map (fun kb => k_fun (snd kb) (piece ax a p (fst kb) x)) (combine (seq n (length ks)) ks)) d = k_fun b (piece ax a p (n + k) x).
Proof.
  induction ks as [|b0 ks IH]; intros n [|k] b d E; cbn in E |- *; try discriminate.
  - injection E as ->. rewrite Nat.add_0_r. reflexivity.
  - rewrite IH with (b := b) by auto. rewrite Nat.add_succ_r. reflexivity.
Qed.
Lemma outputs_nth {A} ax a p (x : array A) (ks : list (blk A)) k b d : nth_error ks k = Some b ->
  nth k (block_outputs ax a p ks x) d = k_fun b (piece ax a p k x).
Proof. apply (outputs_from ax a p x ks 0). Qed.
Lemma Forall2_nth {X} (R : X -> X -> Prop) : forall l l' (d : X), length l = length l' -> (forall k, k < length l -> R (nth k l d) (nth k l' d)) -> Forall2 R l l'.
Proof.
  induction l; intros [|y l'] d H HR; try discriminate; constructor.
  - apply (HR 0). cbn; lia.
  - apply IHl with d; [cbn in H; lia|]. intros k Hk. apply (HR (S k)). cbn; lia.
Qed.
Lemma Forall_nth' {X} (R : X -> Prop) (l : list X) d : (forall k, k < length l -> R (nth k l d)) -> Forall R l.
Proof. intros H. apply Forall_forall. intros x Hx. destruct (In_nth _ _ d Hx) as (k & Hk & <-). auto. Qed.

Theorem row_spec {A} (oper : A -> A -> A) (ks : list (blk A)) pi axin ai (x out : array A) :
  ks <> [] -> Forall proper ks -> length ks = length pi -> partitioned axin pi (ashape x) ai ->
  (forall k b, nth_error ks k = Some b -> ashape (k_fun b (piece axin ai pi k x)) = ashape out) ->
  exists r, row_direct oper ks (map Some pi) axin x out = Ok r /\ ashape r = ashape out
    /\ forall idx d, inside (ashape out) idx -> aval r idx = total oper (block_outputs axin ai pi ks x) idx d.
Proof.
  intros Hne HP H1 Pi HS. unfold row_direct. rewrite known_some. cbn [rbind].
  destruct (reads axin ai pi x Pi) as (is & E & L & V).
  assert (Q : Forall2 aeq (zip_with k_fun ks is) (block_outputs axin ai pi ks x)).
  { apply Forall2_nth with x; [rewrite zip_length, outputs_length; lia|]. rewrite zip_length by lia.
    intros k Hk. destruct (lt_nth_error ks k Hk) as (b & Hb).
    rewrite (zip_nth _ _ _ k b x x), (outputs_nth _ _ _ _ _ k b) by (auto; lia).
    assert (Hp : proper b) by (rewrite Forall_forall in HP; apply HP; eapply nth_error_In; eauto).
    apply Hp. apply V. lia. }
  assert (QS : Forall (fun y => ashape y = ashape out) (zip_with k_fun ks is)).
  { apply Forall_nth' with x. rewrite zip_length by lia. intros k Hk. destruct (lt_nth_error ks k Hk) as (b & Hb).
    rewrite (zip_nth _ _ _ k b x x) by (auto; lia).
    assert (Hp : proper b) by (rewrite Forall_forall in HP; apply HP; eapply nth_error_In; eauto).
    rewrite <- (HS k b Hb). apply Hp. apply V. lia. }
  destruct ks as [|b ks]; [congruence|]. unfold get_slices in *.
  destruct (slices_from axin 0 pi) as [|sin sins] eqn:Es.
  { apply (f_equal (@length _)) in Es. rewrite slices_length in Es. cbn in Es, H1. lia. }
  cbn [rmap] in E. destruct (getitem x sin) as [i|] eqn:Ei; [|discriminate]. cbn [rbind] in E |- *.
  destruct (rmap (getitem x) sins) as [is'|] eqn:Eis; [|discriminate]. cbn [rbind] in E. injection E as <-.
  cbn [zip_with] in Q, QS. inversion QS as [|? ? QS1 QS2]; subst.
  unfold fill, shape_eqb. rewrite QS1. destruct (list_eq_dec _ _ _) as [_|N]; [|congruence]. cbn [rbind].
  rewrite (row_loop_acc oper ks sins x is'); auto.
  2:{ apply (f_equal (@length _)) in Es. rewrite slices_length in Es. cbn in Es, H1. lia. }
  destruct (acc_spec oper (zip_with k_fun ks is') (Arr (ashape out) (aval (k_fun b i)))) as (r & Er & Sr & Vr); [exact QS2|].
  exists r. split; auto. split; auto. intros idx d Hi. rewrite Vr. cbn [aval].
  rewrite <- (total_ext oper idx (ashape out) _ _ d Q); auto.
Qed.

Theorem sum_spec {A} (oper : A -> A -> A) (ks : list (blk A)) (x out : array A) :
  ks <> [] -> (forall b, In b ks -> ashape (k_fun b x) = ashape out) ->
  exists r, sum_direct oper ks x out = Ok r /\ ashape r = ashape out
    /\ forall idx d, aval r idx = total oper (map (fun b => k_fun b x) ks) idx d.
Proof.
  intros Hne HS. destruct ks as [|b ks]; [congruence|]. cbn [sum_direct]. unfold fill, shape_eqb.
  rewrite (HS b) by (left; auto). destruct (list_eq_dec _ _ _) as [_|N]; [|congruence]. cbn [rbind].
  rewrite sum_loop_acc. destruct (acc_spec oper (map (fun b => k_fun b x) ks) (Arr (ashape out) (aval (k_fun b x)))) as (r & Er & Sr & Vr).
  - apply Forall_forall. intros y Hy. apply in_map_iff in Hy as (b' & <- & Hb). cbn. apply HS. right; auto.
  - exists r. split; [auto|]. split; [auto|]. intros. rewrite Vr. reflexivity.
Qed.

(** ** Adjoints *)
Section Adjoint.
Context {K : cring}.
Add Ring Kring : (rth K).

Lemma lsum_perm (l l' : list K) : Permutation l l' -> lsum l = lsum l'.
Proof. induction 1; rewrite ?lsum_cons; try congruence. ring. Qed.
Lemma lsum_flat_map {X} (f : X -> list K) l : lsum (flat_map f l) = lsum (map (fun x => lsum (f x)) l).
Proof. induction l; cbn [flat_map map]; auto. rewrite lsum_app, lsum_cons, IHl. reflexivity. Qed.
Lemma lsum_ext {X} (f g : X -> K) l : (forall x, In x l -> f x = g x) -> lsum (map f l) = lsum (map g l).
Proof. intros H. f_equal. apply map_ext_in. auto. Qed.

Lemma inner_aeq (x x' y y' : array K) : aeq x x' -> aeq y y' -> ashape x = ashape y -> inner x y = inner x' y'.
Proof.
  intros [S1 E1] [S2 E2] S3. unfold inner. rewrite <- S1. apply lsum_ext. intros idx Hi. apply in_indices in Hi.
  rewrite E1, E2; auto. congruence.
Qed.
Lemma inner_pieces ax a p (x y : array K) : partitioned ax p (ashape x) a -> ashape x = ashape y ->
  inner x y = lsum (map (fun k => inner (piece ax a p k x) (piece ax a p k y)) (seq 0 (length p))).
Proof.
  intros HP HS. unfold inner at 1. rewrite (lsum_perm _ _ (Permutation_map _ (glob_tiles ax p (ashape x) a HP))).
  rewrite map_flat_map, lsum_flat_map. apply lsum_ext. intros k _. rewrite map_map. unfold inner, piece.
  rewrite cut_shape. apply lsum_ext. intros idx _. rewrite !cut_val. reflexivity.
Qed.
Lemma fold_radd (idx : list nat) (ys : list (array K)) : forall v,
  fold_left (fun acc z => radd acc (aval z idx)) ys v = radd v (lsum (map (fun z => aval z idx) ys)).
Proof.
  induction ys as [|y ys IH]; intros v; cbn [fold_left map].
  - unfold lsum; cbn. ring.
  - rewrite IH, lsum_cons. ring.
Qed.
Lemma total_radd (idx : list nat) (ys : list (array K)) : ys <> [] -> forall d,
  total radd ys idx d = lsum (map (fun z => aval z idx) ys).
Proof. intros H d. destruct ys; [congruence|]. cbn [total map]. rewrite fold_radd, lsum_cons. reflexivity. Qed.

Lemma lsum_mul_r (l : list K) c : rmul (lsum l) c = lsum (map (fun v => rmul v c) l).
Proof. induction l; cbn [map]; rewrite ?lsum_cons, <- ?IHl; unfold lsum; cbn; ring. Qed.
Lemma lsum_swap {X Y} (f : X -> Y -> K) l l' :
  lsum (map (fun x => lsum (map (f x) l')) l) = lsum (map (fun y => lsum (map (fun x => f x y) l)) l').
Proof.
  induction l as [|x l IH]; cbn [map].
  - induction l'; cbn [map]; auto. rewrite lsum_cons, <- IHl'. unfold lsum; cbn. ring.
  - rewrite lsum_cons, IH. clear IH. induction l' as [|y l' IH]; cbn [map].
    + unfold lsum; cbn; ring.
    + rewrite !lsum_cons, <- IH. ring.
Qed.
Lemma inner_total (r y : array K) (ys : list (array K)) : ys <> [] ->
  (forall idx d, inside (ashape r) idx -> aval r idx = total radd ys idx d) ->
  Forall (fun z => ashape z = ashape r) ys ->
  inner r y = lsum (map (fun z => inner z y) ys).
Proof.
  intros Hne HV HS. unfold inner.
  rewrite (lsum_ext _ (fun idx => lsum (map (fun z => rmul (aval z idx) (aval y idx)) ys))).
  2:{ intros idx Hi. apply in_indices in Hi. rewrite (HV idx r0 Hi), total_radd, lsum_mul_r, map_map by auto. reflexivity. }
  rewrite lsum_swap. apply lsum_ext. intros z Hz. rewrite Forall_forall in HS. rewrite (HS z Hz). reflexivity.
Qed.
Lemma inner_comm (x y : array K) : ashape x = ashape y -> inner x y = inner y x.
Proof. intros H. unfold inner. rewrite H. apply lsum_ext. intros. ring. Qed.
Lemma adjoint_sym si so (k k' : blk K) : adjoint si so k k' -> adjoint so si k' k.
Proof.
  intros (H1 & H2 & H3). split; [auto|]. split; [auto|]. intros y x Hy Hx.
  rewrite inner_comm by (rewrite H2; auto). rewrite <- H3 by auto. apply inner_comm. rewrite H1; auto.
Qed.

Lemma diag_adjoint (ks : list (blk K)) (f : blk K -> blk K) pi po axin axout ai ao (x y r r' : array K) :
  length ks = length pi -> length ks = length po ->
  partitioned axin pi (ashape x) ai -> partitioned axout po (ashape y) ao ->
  (forall k b, nth_error ks k = Some b -> adjoint (ashape (piece axin ai pi k x)) (ashape (piece axout ao po k y)) b (f b)) ->
  ashape r = ashape y -> ashape r' = ashape x ->
  (forall k b, nth_error ks k = Some b -> aeq (piece axout ao po k r) (k_fun b (piece axin ai pi k x))) ->
  (forall k b, nth_error ks k = Some b -> aeq (piece axin ai pi k r') (k_fun (f b) (piece axout ao po k y))) ->
  inner r y = inner x r'.
Proof.
  intros H1 H2 Pi Po HA S S' V V'.
  rewrite (inner_pieces axout ao po r y) by (rewrite ?S; auto).
  rewrite (inner_pieces axin ai pi x r') by auto. rewrite <- H1, <- H2.
  apply lsum_ext. intros k Hk. apply in_seq in Hk. destruct (lt_nth_error ks k ltac:(lia)) as (b & Hb).
  destruct (HA k b Hb) as (A1 & A2 & A3).
  rewrite (inner_aeq _ _ _ (piece axout ao po k y) (V k b Hb) (aeq_refl _)) by (unfold piece; rewrite !cut_shape, S; auto).
  rewrite A3 by auto. apply inner_aeq; [apply aeq_refl|apply aeq_sym, V'; auto|]. rewrite A2; auto.
Qed.
Lemma row_adjoint (ks ks' : list (blk K)) pi axin ai (x y r r' : array K) :
  ks <> [] -> length ks = length pi -> length ks' = length pi -> partitioned axin pi (ashape x) ai ->
  (forall k b b', nth_error ks k = Some b -> nth_error ks' k = Some b' -> adjoint (ashape (piece axin ai pi k x)) (ashape y) b b') ->
  ashape r = ashape y -> ashape r' = ashape x ->
  (forall idx d, inside (ashape r) idx -> aval r idx = total radd (block_outputs axin ai pi ks x) idx d) ->
  (forall k b', nth_error ks' k = Some b' -> aeq (piece axin ai pi k r') (k_fun b' y)) ->
  inner r y = inner x r'.
Proof.
  intros Hne H1 H2 Pi HA S S' V V'.
  rewrite (inner_total r y (block_outputs axin ai pi ks x)); auto.
  2:{ intros E. apply (f_equal (@length _)) in E. rewrite outputs_length in E. destruct ks; [congruence|discriminate]. }
  2:{ apply Forall_nth' with x. rewrite outputs_length. intros k Hk. destruct (lt_nth_error ks k Hk) as (b & Hb).
      destruct (lt_nth_error ks' k ltac:(lia)) as (b' & Hb').
      rewrite (outputs_nth _ _ _ _ _ k b) by auto. rewrite S. apply (HA k b b' Hb Hb'). auto. }
  rewrite (inner_pieces axin ai pi x r') by auto. rewrite <- H1.
  rewrite (lsum_nth _ r0), map_length, outputs_length, <- lsum_map_seq.
  apply lsum_ext. intros k Hk. apply in_seq in Hk. destruct (lt_nth_error ks k ltac:(lia)) as (b & Hb).
  destruct (lt_nth_error ks' k ltac:(lia)) as (b' & Hb').
  destruct (HA k b b' Hb Hb') as (A1 & A2 & A3).
  rewrite (nth_indep _ r0 (inner x y)) by (rewrite map_length, outputs_length; lia).
  rewrite (map_nth (fun z => inner z y) _ x), (outputs_nth _ _ _ _ _ k b) by auto.
  rewrite A3 by auto. apply inner_aeq; [apply aeq_refl|apply aeq_sym, V'; auto|]. rewrite A2; auto.
Qed.
End Adjoint.
