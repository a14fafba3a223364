From Verif Require Import Base Algebra Ofield BlockModel BlockSpec BlockProofs DiagModel DiagSpec DiagProofs RedModel RedSpec.

(** ** The C order *)
Lemma prod_app s t : prod (s ++ t) = prod s * prod t.
Proof. induction s as [|n s IH]; [cbn [app]; change (prod []) with 1; lia|]. cbn [app]. change (n * prod (s ++ t) = n * prod s * prod t). rewrite IH. lia. Qed.
Lemma prod_cons n s : prod (n :: s) = n * prod s. Proof. reflexivity. Qed.
Lemma flat_lt s idx : inside s idx -> flat s idx < prod s.
Proof. intros H. induction H as [|n i s idx Hi H IH]; cbn [flat]; [cbn; lia|]. rewrite prod_cons. nia. Qed.
Lemma unflat_flat s idx : inside s idx -> unflat s (flat s idx) = idx.
Proof.
  intros H. induction H as [|n i s idx Hi H IH]; cbn [flat unflat]; [reflexivity|]. pose proof (flat_lt s idx H) as L.
  rewrite Nat.div_add_l by lia. rewrite Nat.div_small, Nat.add_0_r by exact L.
  rewrite (Nat.add_comm (i * prod s)), Nat.mod_add, Nat.mod_small by lia. f_equal. exact IH.
Qed.
Lemma unflat_inside s : forall k, k < prod s -> inside s (unflat s k).
Proof.
  induction s as [|n s IH]; intros k H; cbn [unflat]; [constructor|]. rewrite prod_cons in H. constructor; [apply Nat.div_lt_upper_bound; nia|]. apply IH, Nat.mod_upper_bound. nia.
Qed.
Lemma flat_unflat s : forall k, k < prod s -> flat s (unflat s k) = k.
Proof.
  induction s as [|n s IH]; intros k H; cbn [flat unflat]; [cbn in H; lia|]. rewrite prod_cons in H. rewrite IH by (apply Nat.mod_upper_bound; nia).
  rewrite Nat.mul_comm. symmetry. apply Nat.div_mod_eq.
Qed.
Lemma flat_app s t i j : length i = length s -> flat (s ++ t) (i ++ j) = flat s i * prod t + flat t j.
Proof.
  revert i. induction s as [|n s IH]; intros [|a i] L; try discriminate; cbn [app flat]; [lia|]. rewrite IH by (cbn in L; lia). rewrite prod_app. lia.
Qed.
Lemma unflat_app s t k l : k < prod s -> l < prod t -> unflat (s ++ t) (k * prod t + l) = unflat s k ++ unflat t l.
Proof.
  intros H1 H2. assert (inside (s ++ t) (unflat s k ++ unflat t l)) as I.
  { apply inside_app; [symmetry; apply inside_length, unflat_inside, H1|]. split; apply unflat_inside; assumption. }
  rewrite <- (unflat_flat _ _ I). rewrite flat_app by (apply inside_length, unflat_inside, H1). rewrite !flat_unflat by assumption. reflexivity.
Qed.
Lemma indices_unflat s : indices s = map (unflat s) (seq 0 (prod s)).
Proof.
  induction s as [|n s IH]; [reflexivity|]. cbn [indices]. rewrite IH, prod_cons. clear IH.
  induction n as [|m IH]; [reflexivity|]. rewrite seq_S, flat_map_app, IH. change (unflat (S m :: s)) with (unflat (m :: s)). replace (S m * prod s) with (m * prod s + prod s) by lia.
  rewrite seq_app, map_app. f_equal. cbn [flat_map plus]. rewrite app_nil_r, (seq_from (m * prod s)), !map_map. apply map_ext_in. intros k Hk. apply in_seq in Hk.
  cbn [unflat]. rewrite Nat.div_add_l by lia. rewrite Nat.div_small, Nat.add_0_r by lia. rewrite (Nat.add_comm (m * prod s)), Nat.mod_add, Nat.mod_small by lia. reflexivity.
Qed.
Lemma reshape_ok {A} (x : array A) s : prod (ashape x) = prod s -> reshape x s = Ok (Arr s (fun idx => aval x (unflat (ashape x) (flat s idx)))).
Proof. intros E. unfold reshape. rewrite E, Nat.eqb_refl. reflexivity. Qed.

(** ** Axes *)
Lemma axis_of_position z n a : axis_of z n = Ok a <-> position (Axis z) n = Some a.
Proof.
  unfold axis_of, position. cbn [axis_value]. destruct (Z.leb_spec 0 z), (Z.ltb_spec z 0); try lia.
  - destruct (Z.leb_spec (- Z.of_nat n) z); try lia. destruct (Z.leb_spec 0 z); try lia. cbn [andb]. destruct (z <? Z.of_nat n)%Z; split; congruence.
  - destruct (Z.leb_spec (- Z.of_nat n) z), (Z.leb_spec 0 (z + Z.of_nat n)), (Z.ltb_spec z (Z.of_nat n)), (Z.ltb_spec (z + Z.of_nat n) (Z.of_nat n)); try lia; cbn [andb]; split; congruence.
Qed.
Lemma position_cases z n a : position (Axis z) n = Some a -> (0 <= z < Z.of_nat n /\ z = Z.of_nat a)%Z \/ (- Z.of_nat n <= z < 0 /\ z = Z.of_nat a - Z.of_nat n)%Z.
Proof. unfold position. cbn [axis_value]. destruct (Z.leb_spec 0 z); (destruct (_ && _)%bool eqn:E; [|discriminate]); intros [= <-]; apply andb_prop in E; destruct E as [E1 E2]; apply Z.leb_le in E1; apply Z.ltb_lt in E2; lia. Qed.
Lemma position_split z s a : position (Axis z) (length s) = Some a -> exists u n v, s = u ++ n :: v /\ length u = a /\ n = nth a s 0.
Proof.
  intros H. assert (a < length s) as L. { apply position_cases in H. lia. }
  exists (firstn a s), (nth a s 0), (skipn (S a) s). split; [|split; [rewrite firstn_length; lia|reflexivity]].
  rewrite <- (firstn_skipn a s) at 1. f_equal. clear H. revert a L. induction s as [|m s IH]; intros [|a] L; cbn in *; try lia; [reflexivity|]. apply IH. lia.
Qed.
Lemma reshapein_position z s a : position (Axis z) (length s) = Some a -> red_reshapein z s = remove_at a s.
Proof.
  intros H. apply position_cases in H. unfold red_reshapein, upto, from, remove_at, bound. destruct (Z.eqb_spec z (-1)) as [->|N].
  - change (-1 <? 0)%Z with true. cbn iota. rewrite (skipn_all2 s) by lia. rewrite app_nil_r. f_equal. lia.
  - destruct (Z.ltb_spec z 0), (Z.ltb_spec (z + 1) 0); try lia; f_equal; f_equal; lia.
Qed.

Section Red.
Context {K : cring}.
Add Ring KringR : (rth K).
(** *** Sums over the indices *)
Lemma lsum_seq n (f : nat -> K) : lsum (map f (seq 0 n)) = sum n f. Proof. apply lsum_map_seq. Qed.
Lemma lsum_indices_insert u n v (f : list nat -> K) :
  lsum (map f (indices (u ++ n :: v))) = lsum (map (fun idx => sum n (fun j => f (insert (length u) j idx))) (indices (u ++ v))).
Proof.
  rewrite (lsum_perm _ _ (Permutation_map f (indices_insert u n v))). rewrite map_flat_map, lsum_flat_map.
  rewrite (lsum_ext _ (fun j => lsum (map (fun idx => f (insert (length u) j idx)) (indices (u ++ v))))) by (intros; rewrite map_map; reflexivity).
  rewrite lsum_swap. apply lsum_ext. intros idx _. apply lsum_seq.
Qed.
Lemma inside_remove u v idx : inside (u ++ v) idx -> exists i l, idx = i ++ l /\ length i = length u /\ inside u i /\ inside v l /\ forall j, insert (length u) j idx = i ++ j :: l.
Proof.
  intros H. destruct (inside_app_split u v idx H) as (i & l & -> & Hi & Hl & L). exists i, l. repeat split; auto. intros j. rewrite <- L. apply insert_app.
Qed.

(** ** Sum *)
Lemma np_sum_ok z (x : array K) a : position (Axis z) (length (ashape x)) = Some a ->
  np_sum z x = Ok (Arr (remove_at a (ashape x)) (fun idx => sum (nth a (ashape x) 0) (fun i => aval x (insert a i idx)))).
Proof. intros P. apply axis_of_position in P. unfold np_sum. rewrite P. reflexivity. Qed.
Lemma validate_position z s a : position (Axis z) (length s) = Some a -> red_validatein (Some z) s = Ok tt.
Proof.
  intros P. destruct (position_split z s a P) as (u & n & v & E & _). unfold red_validatein. destruct (Nat.eqb_spec (length s) 0) as [L|_]; [rewrite E, app_length in L; cbn in L; lia|].
  apply position_cases in P. destruct (Z.ltb_spec (Z.of_nat (length s)) (if (0 <=? z)%Z then z + 1 else Z.abs z)) as [L|L]; [|reflexivity]. exfalso; revert L; destruct (Z.leb_spec 0 z); lia.
Qed.
Lemma sum_call_ok z (x : array K) a : position (Axis z) (length (ashape x)) = Some a ->
  sum_call (Some z) x = Ok (Arr (remove_at a (ashape x)) (fun idx => sum (nth a (ashape x) 0) (fun i => aval x (insert a i idx)))).
Proof.
  intros P. unfold sum_call. rewrite (validate_position z _ a P). cbn [rbind]. rewrite (np_sum_ok z x a P). cbn [rbind ashape].
  rewrite (reshapein_position z _ a P), shape_eqb_refl. reflexivity.
Qed.
Lemma sum_call_rejects z (x : array K) : position (Axis z) (length (ashape x)) = None -> exists e, sum_call (Some z) x = Raise e.
Proof.
  intros P. unfold sum_call, red_validatein. destruct (Nat.eqb_spec (length (ashape x)) 0); [eexists; reflexivity|]. unfold position in P. cbn [axis_value] in P.
  destruct (Z.ltb_spec (Z.of_nat (length (ashape x))) (if (0 <=? z)%Z then z + 1 else Z.abs z)) as [L|L]; [eexists; reflexivity|]. exfalso.
  revert P L. destruct (Z.leb_spec 0 z); intros P L.
  - destruct (Z.leb_spec 0 z); [|lia]. destruct (Z.ltb_spec z (Z.of_nat (length (ashape x)))); [discriminate|lia].
  - destruct (Z.leb_spec 0 (z + Z.of_nat (length (ashape x)))); [|lia]. destruct (Z.ltb_spec (z + Z.of_nat (length (ashape x))) (Z.of_nat (length (ashape x)))); [discriminate|lia].
Qed.
Lemma transpose_shape z u v : (z = -1 \/ 0 <= z)%Z -> position (Axis z) (length (u ++ v) + 1) = Some (length u) ->
  (if (z =? -1)%Z then (u ++ v) ++ [1] else upto z (u ++ v) ++ [1] ++ from z (u ++ v)) = u ++ 1 :: v.
Proof.
  intros C P. apply position_cases in P. rewrite app_length in P.
  destruct (Z.eqb_spec z (-1)) as [->|N].
  - assert (length v = 0) as L by lia. destruct v; [|discriminate]. rewrite app_nil_r. reflexivity.
  - assert (bound z (length (u ++ v)) = length u) as B. { unfold bound. rewrite app_length. destruct (Z.ltb_spec z 0); lia. }
    unfold upto, from. rewrite B. rewrite firstn_app, firstn_all, Nat.sub_diag, skipn_app, skipn_all, Nat.sub_diag. cbn. rewrite app_nil_r. reflexivity.
Qed.
Lemma assign_ok {A} (x : array A) s : stretches (rev (ashape x)) (rev s) -> assign x s = Ok (Arr s (fun idx => stretched x idx)).
Proof. intros H. unfold assign. destruct (bc_stretch _ _ H) as [-> _]. cbn [rbind]. rewrite shape_eqb_refl. reflexivity. Qed.
Lemma stretches_app a b s t : length a = length s -> stretches a s -> stretches b t -> stretches (a ++ b) (s ++ t).
Proof. revert s. induction a as [|n a IH]; intros [|m s] L H1 H2; try discriminate; [exact H2|]. cbn in *. split; [tauto|]. apply IH; [lia|tauto|exact H2]. Qed.
Lemma clip_app a b i j : length a = length i -> clip (a ++ b) (i ++ j) = clip a i ++ clip b j.
Proof. revert i. induction a as [|n a IH]; intros [|k i] L; try discriminate; [reflexivity|]. cbn. rewrite IH by (cbn in L; lia). reflexivity. Qed.
Lemma sum_transpose_ok z (y : array K) u n v : (z = -1 \/ 0 <= z)%Z -> position (Axis z) (length (u ++ n :: v)) = Some (length u) -> ashape y = u ++ v ->
  exists t, sum_transpose (Some z) y (u ++ n :: v) = Ok t /\ ashape t = u ++ n :: v /\
  forall i j l, inside u i -> j < n -> inside v l -> aval t (i ++ j :: l) = aval y (i ++ l).
Proof.
  intros C P S. unfold sum_transpose. rewrite S, (transpose_shape z u v C) by (rewrite <- P; f_equal; rewrite !app_length; cbn; lia).
  rewrite reshape_ok by (rewrite S, !prod_app, prod_cons; lia). cbn [rbind].
  rewrite assign_ok.
  2:{ cbn [ashape]. rewrite !rev_app_distr. cbn [rev]. rewrite <- !app_assoc. apply stretches_app; [reflexivity|apply stretches_refl|]. cbn. split; [auto|apply stretches_refl]. }
  eexists. split; [reflexivity|]. split; [reflexivity|]. intros i j l Hi Hj Hl. cbn [aval]. unfold stretched. cbn [ashape aval].
  assert (rev (clip (rev (u ++ 1 :: v)) (rev (i ++ j :: l))) = i ++ 0 :: l) as ->.
  { rewrite !rev_app_distr. cbn [rev]. rewrite <- !app_assoc. cbn [app]. rewrite clip_app by (rewrite !rev_length; symmetry; apply inside_length; exact Hl).
    rewrite clip_inside by (apply inside_rev, Hl). cbn [clip Nat.eqb]. rewrite (clip_inside (rev u)) by (apply inside_rev, Hi). rewrite rev_app_distr. cbn [rev]. rewrite !rev_involutive, <- app_assoc. reflexivity. }
  rewrite S, flat_app by (apply inside_length, Hi). cbn [flat]. rewrite prod_cons. f_equal.
  rewrite <- (unflat_flat (u ++ v) (i ++ l)) at 1 by (apply inside_app; [symmetry; apply inside_length, Hi|auto]).
  rewrite flat_app by (apply inside_length, Hi). f_equal. lia.
Qed.
Lemma sum_adjoint z (x y : array K) a : (z = -1 \/ 0 <= z)%Z -> position (Axis z) (length (ashape x)) = Some a -> ashape y = remove_at a (ashape x) ->
  exists s t, sum_call (Some z) x = Ok s /\ sum_transpose (Some z) y (ashape x) = Ok t /\ ashape s = ashape y /\ ashape t = ashape x /\ inner s y = inner x t.
Proof.
  intros C P S. destruct (position_split z _ a P) as (u & n & v & E & L & N). subst a. rewrite E in S. rewrite remove_at_app in S.
  rewrite (sum_call_ok z x (length u) P). destruct (sum_transpose_ok z y u n v C) as (t & T & St & Vt); [rewrite <- E; exact P|exact S|].
  rewrite E. rewrite T. do 2 eexists. split; [reflexivity|]. split; [reflexivity|]. split; [cbn; rewrite remove_at_app; congruence|]. split; [congruence|].
  unfold inner. rewrite E. cbn [ashape]. rewrite remove_at_app, (lsum_indices_insert u n v). apply lsum_ext. intros idx I. apply in_indices in I.
  destruct (inside_remove u v idx I) as (i & l & -> & Li & Hi & Hl & Ins). cbn [aval]. rewrite app_nth2, Nat.sub_diag by lia. cbn [nth].
  rewrite <- sum_mul_r. apply sum_ext. intros j Hj. rewrite Ins, Vt by assumption. reflexivity.
Qed.
Lemma sum_all_adjoint (x y : array K) : ashape x <> [] -> ashape y = [] ->
  exists s t, sum_call None x = Ok s /\ sum_transpose None y (ashape x) = Ok t /\ ashape s = ashape y /\ ashape t = ashape x /\ inner s y = inner x t.
Proof.
  intros N S. unfold sum_call, red_validatein, sum_transpose. destruct (Nat.eqb_spec (length (ashape x)) 0) as [L|_]; [destruct (ashape x); [congruence|discriminate]|]. cbn [rbind].
  rewrite assign_ok by (rewrite S; exact I). do 2 eexists. split; [reflexivity|]. split; [reflexivity|]. split; [auto|]. split; [reflexivity|].
  unfold inner. cbn [ashape indices map aval]. unfold ravel.
  transitivity (lsum (map (fun idx => (aval x idx * aval y [])%cr) (indices (ashape x)))).
  - rewrite <- (map_map (aval x) (fun c => (c * aval y [])%cr)), <- lsum_mul_r. unfold lsum at 1. cbn [fold_right]. ring.
  - apply lsum_ext. intros idx _. unfold stretched. rewrite S. reflexivity.
Qed.

(** ** Difference *)
Lemma set_nth_app' {T} (u : list T) k v (y : T) : length u = length u -> set_nth (u ++ k :: v) (length u) y = u ++ y :: v.
Proof. intros _. apply set_nth_app. Qed.
Lemma nth_mid (u : list nat) k v : nth (length u) (u ++ k :: v) 0 = k.
Proof. rewrite app_nth2, Nat.sub_diag by lia. reflexivity. Qed.
Lemma np_diff_ok z (x : array K) u n v : ashape x = u ++ n :: v -> position (Axis z) (length (ashape x)) = Some (length u) ->
  exists d, np_diff z x = Ok d /\ ashape d = u ++ (n - 1) :: v /\
  forall i j l, length i = length u -> aval d (i ++ j :: l) = (aval x (i ++ S j :: l) - aval x (i ++ j :: l))%cr.
Proof.
  intros E P. apply axis_of_position in P. unfold np_diff. rewrite P. cbn [rbind]. eexists. split; [reflexivity|]. cbn [ashape aval]. rewrite E, set_nth_app, nth_mid. split; [reflexivity|].
  intros i j l L. rewrite <- L, !set_nth_app, nth_mid. reflexivity.
Qed.
Lemma position_length z n m : position (Axis z) n = m -> forall n', n' = n -> position (Axis z) n' = m.
Proof. intros H n' ->. exact H. Qed.
Lemma diff_call_ok z (x : array K) u n v : ashape x = u ++ n :: v -> position (Axis z) (length (ashape x)) = Some (length u) ->
  exists d, diff_call z x = Ok d /\ ashape d = u ++ (n - 1) :: v /\
  forall i j l, length i = length u -> aval d (i ++ j :: l) = (aval x (i ++ S j :: l) - aval x (i ++ j :: l))%cr.
Proof.
  intros E P. destruct (np_diff_ok z x u n v E P) as (d & D & S & V). exists d. split; [|auto]. apply axis_of_position in P. unfold diff_call, diff_reshapein. rewrite P. cbn [rbind]. rewrite D. cbn [rbind].
  rewrite E, set_nth_app, nth_mid, S, shape_eqb_refl. reflexivity.
Qed.
Lemma diff_transpose_ok cast z (y : array K) u m v : (forall idx, inside (ashape y) idx -> cast (aval y idx) = aval y idx) -> ashape y = u ++ m :: v -> position (Axis z) (length (ashape y)) = Some (length u) ->
  exists t, diff_transpose cast z y = Ok t /\ ashape t = u ++ S m :: v /\
  forall i j l, inside u i -> j < S m -> inside v l ->
    aval t (i ++ j :: l) = ((if Nat.eqb j 0%nat then 0 else aval y (i ++ (j - 1)%nat :: l)) - (if Nat.eqb j m then 0 else aval y (i ++ j :: l)))%cr.
Proof.
  intros C E P. unfold diff_transpose. pose proof P as Q. apply axis_of_position in Q. rewrite Q. cbn [rbind]. rewrite E, set_nth_app, nth_mid.
  match goal with |- context [np_diff z ?t] => set (tmp := t) end.
  destruct (np_diff_ok z tmp u (m + 2) v eq_refl) as (d & D & Sh & V). { rewrite <- P. f_equal. cbn [tmp ashape]. rewrite E, !app_length. reflexivity. }
  rewrite D. cbn [rbind]. unfold diff_reshapeout. rewrite <- E, Q. cbn [rbind]. rewrite E, set_nth_app, nth_mid, Sh. replace (m + 2 - 1) with (m + 1) by lia. rewrite shape_eqb_refl.
  eexists. split; [reflexivity|]. split; [cbn; rewrite Nat.add_1_r; reflexivity|]. intros i j l Hi Hj Hl. cbn [aval]. pose proof (inside_length _ _ Hi) as L. rewrite V by exact L.
  cbn [tmp aval]. rewrite <- L, !nth_mid, !set_nth_app. rewrite L, nth_mid. replace (S j - 1) with j by lia.
  assert (forall k, k < m -> cast (aval y (i ++ k :: l)) = aval y (i ++ k :: l)) as F. { intros k Hk. apply C. rewrite E. apply inside_mid; auto. }
  destruct (Nat.leb_spec 1 (S j)) as [_|]; [|lia]. cbn [andb]. destruct (Nat.eqb_spec j m) as [Em|Nm].
  - destruct (Nat.ltb_spec (S j) (m + 2 - 1)); [lia|]. destruct (Nat.eqb_spec j 0) as [N0|N0]; destruct (Nat.leb_spec 1 j); try lia; cbn [andb]; [ring|].
    destruct (Nat.ltb_spec j (m + 2 - 1)); [|lia]. rewrite F by lia. ring.
  - destruct (Nat.ltb_spec (S j) (m + 2 - 1)); [|lia]. rewrite (F j) by lia. destruct (Nat.eqb_spec j 0) as [N0|N0]; destruct (Nat.leb_spec 1 j); try lia; cbn [andb]; [ring|].
    destruct (Nat.ltb_spec j (m + 2 - 1)); [|lia]. rewrite F by lia. ring.
Qed.
Lemma sum_S n (f : nat -> K) : sum (S n) f = (sum n f + f n)%cr. Proof. reflexivity. Qed.
Lemma abel (x y : nat -> K) m : sum m (fun j => (x (S j) - x j) * y j)%cr =
  sum (S m) (fun j => x j * ((if Nat.eqb j 0%nat then 0 else y (j - 1)%nat) - (if Nat.eqb j m then 0 else y j)))%cr.
Proof.
  assert (forall k, sum (S k) (fun j => x j * ((if Nat.eqb j 0%nat then 0 else y (j - 1)%nat) - y j))%cr = (sum k (fun j => (x (S j) - x j) * y j) - x k * y k)%cr) as H.
  { induction k as [|k IH]; [cbn; ring|]. rewrite sum_S, IH, (sum_S k). replace (S k - 1) with k by lia. cbn [Nat.eqb]. ring. }
  rewrite sum_S, Nat.eqb_refl. destruct m as [|m]; [cbn; ring|].
  rewrite (sum_ext (S m) (fun j => x j * ((if Nat.eqb j 0%nat then 0 else y (j - 1)%nat) - (if Nat.eqb j (S m) then 0 else y j)))%cr (fun j => x j * ((if Nat.eqb j 0%nat then 0 else y (j - 1)%nat) - y j))%cr).
  - rewrite H, (sum_S m). replace (S m - 1) with m by lia. cbn [Nat.eqb]. ring.
  - intros j Hj. destruct (Nat.eqb_spec j (S m)); [lia|reflexivity].
Qed.
Lemma diff_adjoint cast z (x y : array K) a : (forall idx, inside (ashape y) idx -> cast (aval y idx) = aval y idx) -> position (Axis z) (length (ashape x)) = Some a ->
  0 < nth a (ashape x) 0 -> ashape y = set_nth (ashape x) a (nth a (ashape x) 0 - 1) ->
  exists s t, diff_call z x = Ok s /\ diff_transpose cast z y = Ok t /\ ashape s = ashape y /\ ashape t = ashape x /\ inner s y = inner x t.
Proof.
  intros C P N0 S. destruct (position_split z _ a P) as (u & n & v & E & L & N). subst a. rewrite E, set_nth_app, nth_mid in S. rewrite E, nth_mid in N0.
  destruct (diff_call_ok z x u n v E P) as (s & Es & Ss & Vs). assert (position (Axis z) (length (ashape y)) = Some (length u)) as P'. { rewrite <- P. f_equal. rewrite E, S, !app_length. reflexivity. }
  destruct (diff_transpose_ok cast z y u (n - 1) v C S P') as (t & Et & St & Vt). exists s, t. replace (Datatypes.S (n - 1)) with n in * by lia.
  split; [exact Es|]. split; [exact Et|]. split; [congruence|]. split; [congruence|]. unfold inner. rewrite Ss, E, !lsum_indices_insert. apply lsum_ext. intros idx I. apply in_indices in I.
  destruct (inside_remove u v idx I) as (i & l & -> & Li & Hi & Hl & Ins). 
  rewrite (sum_ext (n - 1) _ (fun j => (aval x (i ++ Datatypes.S j :: l) - aval x (i ++ j :: l)) * aval y (i ++ j :: l))%cr) by (intros j Hj; rewrite Ins, Vs by exact Li; reflexivity).
  rewrite (abel (fun j => aval x (i ++ j :: l)) (fun j => aval y (i ++ j :: l))). replace (Datatypes.S (n - 1)) with n by lia. apply sum_ext. intros j Hj. rewrite Ins, Vt by (auto; lia). reflexivity.
Qed.
End Red.

(** ** Integration *)
Section Trapeze.
Context {K : ofield}.
Add Ring KringT : (rth K).
Local Open Scope cr_scope.
Lemma total_lsum (ys : list (array K)) idx d : ys <> [] -> total radd ys idx d = lsum (map (fun y => aval y idx) ys).
Proof.
  destruct ys as [|y ys]; [congruence|]. intros _. cbn [total map]. rewrite lsum_cons. generalize (aval y idx). induction ys as [|z ys IH]; intros c; cbn [fold_left map]; [cbn; ring|].
  rewrite IH, lsum_cons. ring.
Qed.
Lemma offset_ones n k : (k <= n)%nat -> offset (repeat 1%nat n) k = k.
Proof. unfold offset. revert k. induction n as [|n IH]; intros [|k] H; cbn; try lia. f_equal. apply IH. lia. Qed.
Lemma trapezoid_sum (h : K) (x f : nat -> K) k :
  h * (x 1%nat - x 0%nat) * f 0%nat + sum k (fun i => h * (x (S (S i)) - x i) * f (S i)) + h * (x (S k) - x k) * f (S k) =
  sum (S k) (fun i => h * (x (S i) - x i) * (f i + f (S i))).
Proof.
  induction k as [|k IH]; [cbn [sum]; ring|]. rewrite (sum_S (S k) (fun i => h * (x (S i) - x i) * (f i + f (S i)))). rewrite <- IH. rewrite (sum_S k (fun i => h * (x (S (S i)) - x i) * f (S i))). ring.
Qed.
Definition weight (x : list K) (i : nat) : K :=
  half * (if Nat.eqb i 0 then nth 1 x 0 - nth 0 x 0 else if Nat.eqb i (length x - 1) then nth (length x - 1) x 0 - nth (length x - 2) x 0 else nth (i + 1) x 0 - nth (i - 1) x 0).
Lemma weight_sum (x : list K) (f : nat -> K) : (2 <= length x)%nat ->
  sum (length x) (fun i => weight x i * f i) = sum (length x - 1) (fun i => half * (nth (S i) x 0 - nth i x 0) * (f i + f (S i))).
Proof.
  intros L. remember (length x - 2)%nat as k eqn:E. replace (length x - 1)%nat with (S k) by lia.
  rewrite <- (trapezoid_sum half (fun i => nth i x 0) f k). replace (length x) with (S (S k)) by lia. rewrite sum_S, sum_S_l.
  assert (weight x 0 = half * (nth 1 x 0 - nth 0 x 0)) as -> by reflexivity.
  assert (weight x (S k) = half * (nth (S k) x 0 - nth k x 0)) as ->. { unfold weight. replace (Nat.eqb (S k) 0) with false by reflexivity. replace (length x - 1)%nat with (S k) by lia. rewrite Nat.eqb_refl. replace (length x - 2)%nat with k by lia. reflexivity. }
  f_equal. f_equal. apply sum_ext. intros i Hi. unfold weight. replace (Nat.eqb (S i) 0) with false by reflexivity. destruct (Nat.eqb_spec (S i) (length x - 1)); [lia|]. replace (S i + 1)%nat with (S (S i)) by lia. replace (S i - 1)%nat with i by lia. reflexivity.
Qed.
Lemma diffs_nth (x : list K) i : (S i < length x)%nat -> In (nth (S i) x 0 - nth i x 0) (diffs x).
Proof.
  unfold diffs. revert i. induction x as [|a [|b x] IH]; intros i H; cbn [length] in H; try lia. destruct i as [|i]; [left; reflexivity|]. right. apply (IH i). cbn [length]. lia.
Qed.
Lemma in_diffs (x : list K) d : In d (diffs x) -> exists i, (S i < length x)%nat /\ d = nth (S i) x 0 - nth i x 0.
Proof.
  unfold diffs. revert d. induction x as [|a [|b x] IH]; intros d H; cbn in H; try contradiction. destruct H as [<-|H]; [exists 0%nat; split; [cbn; lia|reflexivity]|].
  destruct (IH d H) as (i & Hi & ->). exists (S i). split; [cbn in *; lia|reflexivity].
Qed.
Lemma neg_lt (a b : K) : lt (b - a) 0 <-> lt b a.
Proof. rewrite (lt_sub (b - a) 0), (lt_sub b a). replace (0 - (b - a)) with (a - b) by ring. tauto. Qed.
Lemma existsb_neg (x : list K) : existsb (fun d => ltb d 0) (diffs x) = false <-> forall i, (S i < length x)%nat -> le (nth i x 0) (nth (S i) x 0).
Proof.
  split.
  - intros E i Hi. unfold le. destruct (ltb (nth (S i) x 0) (nth i x 0)) eqn:F; [|reflexivity]. apply (proj2 (neg_lt _ _)) in F.
    assert (existsb (fun d => ltb d 0) (diffs x) = true) as T; [|congruence]. apply existsb_exists. eexists. split; [apply diffs_nth, Hi|exact F].
  - intros H. destruct (existsb _ _) eqn:E; [|reflexivity]. apply existsb_exists in E. destruct E as (d & I & L). apply in_diffs in I. destruct I as (i & Hi & ->). apply (proj1 (neg_lt _ _)) in L. specialize (H i Hi). unfold le, lt in *. congruence.
Qed.
Lemma existsb_pos (x : list K) : existsb (fun d => ltb 0 d) (diffs x) = false <-> forall i, (S i < length x)%nat -> le (nth (S i) x 0) (nth i x 0).
Proof.
  split.
  - intros E i Hi. unfold le. destruct (ltb (nth i x 0) (nth (S i) x 0)) eqn:F; [|reflexivity]. apply (proj1 (lt_sub _ _)) in F.
    assert (existsb (fun d => ltb 0 d) (diffs x) = true) as T; [|congruence]. apply existsb_exists. eexists. split; [apply diffs_nth, Hi|exact F].
  - intros H. destruct (existsb _ _) eqn:E; [|reflexivity]. apply existsb_exists in E. destruct E as (d & I & L). apply in_diffs in I. destruct I as (i & Hi & ->). apply (proj2 (lt_sub _ _)) in L. specialize (H i Hi). unfold le, lt in *. congruence.
Qed.
Lemma weights_ok cast x : (2 <= length x)%nat -> monotonic x -> weights cast x = Ok (map (fun i => cast (weight x i)) (seq 0 (length x))).
Proof.
  intros L M. unfold weights. destruct (Nat.ltb_spec (length x) 2); [lia|]. destruct M as [M|M]; [apply existsb_neg in M; rewrite M|apply existsb_pos in M; rewrite M, andb_false_r]; reflexivity.
Qed.
Lemma weights_rejects cast (x : list K) : ~ ((2 <= length x)%nat /\ monotonic x) -> weights cast x = Raise ValueError.
Proof.
  intros N. unfold weights. destruct (Nat.ltb_spec (length x) 2); [reflexivity|]. destruct (existsb (fun d => ltb d 0) (diffs x)) eqn:E1; [destruct (existsb (fun d => ltb 0 d) (diffs x)) eqn:E2; [reflexivity|]|]; exfalso; apply N.
  - split; [lia|]. right. apply existsb_pos, E2.
  - split; [lia|]. left. apply existsb_neg, E1.
Qed.
Lemma combine_map_self {X Y} (g : X -> Y) (l : list X) : combine l (map g l) = map (fun i => (i, g i)) l.
Proof. induction l; cbn; congruence. Qed.
Lemma trapeze_ok cast x z (f out : array K) a : (2 <= length x)%nat -> monotonic x -> (forall i, (i < length x)%nat -> cast (weight x i) = weight x i) ->
  position (NewAxis z) (length (ashape f)) = Some a -> nth a (ashape f) 0%nat = length x -> ashape out = remove_at a (ashape f) ->
  exists r, trapeze cast x z f out = Ok r /\ ashape r = ashape out /\
  forall idx, inside (ashape out) idx -> aval r idx = sum (length x - 1) (fun i => half * (nth (S i) x 0 - nth i x 0) * (aval f (insert a i idx) + aval f (insert a (S i) idx))).
Proof.
  intros L M C P N So. unfold trapeze. rewrite weights_ok by assumption. cbn [rbind]. rewrite map_length, seq_length.
  set (ks := map homothety_block (map (fun i => cast (weight x i)) (seq 0 (length x)))).
  assert (length ks = length x) as Lk by (unfold ks; rewrite !map_length, seq_length; reflexivity).
  replace (repeat (Some 1%nat) (length x)) with (map Some (repeat 1%nat (length x))) by (clear; induction (length x); cbn; congruence).
  destruct (row_spec radd ks (repeat 1%nat (length x)) (NewAxis z) a f out) as (r & E & S & V).
  - destruct ks; [cbn in Lk; lia|congruence].
  - unfold ks. apply Forall_forall. intros k Hk. apply in_map_iff in Hk. destruct Hk as (w & <- & _). split; [|reflexivity]. intros u v [Su Vu]. split; [exact Su|]. intros idx I. cbn in *. rewrite Vu by exact I. reflexivity.
  - rewrite repeat_length. exact Lk.
  - split; [exact P|]. rewrite N. reflexivity.
  - intros k b Hb. unfold ks in Hb. rewrite nth_error_map in Hb. destruct (nth_error (map _ _) k); [|discriminate]. injection Hb as <-. cbn. symmetry. exact So.
  - exists r. split; [exact E|]. split; [exact S|]. intros idx I. rewrite (V idx 0 I). rewrite total_lsum.
    2:{ unfold block_outputs. intros F. apply map_eq_nil in F. apply (f_equal (@length _)) in F. rewrite combine_length, seq_length, Lk in F. cbn in F. lia. }
    rewrite <- (weight_sum x (fun i => aval f (insert a i idx)) L). rewrite <- lsum_map_seq. f_equal. unfold block_outputs, ks. rewrite !map_map, !map_length, seq_length.
    rewrite combine_map_self, map_map. apply map_ext_in. intros k Hk. apply in_seq in Hk. cbn [fst snd k_fun homothety_block aval]. rewrite C by lia. unfold piece, cut. cbn [aval]. rewrite offset_ones by lia. reflexivity.
Qed.
Lemma half_div (a b : K) : half * a * b = div (a * b) (r1 + r1).
Proof. unfold half, div. ring. Qed.
End Trapeze.
