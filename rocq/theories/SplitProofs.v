From Verif Require Import Base SplitModel SplitSpec.
Require Import ZifyBool ZifyNat.
Open Scope Z_scope.
Ltac Zify.zify_post_hook ::= Z.div_mod_to_equations.

Definition startof (n m r : Z) := n / m * r + Z.min r (n mod m).

Lemma startof_succ n m r : 0 < m -> startof n m (r + 1) = startof n m r + work n m r.
Proof.
  intros Hm. unfold startof, work, b2z.
  destruct (Z.ltb_spec r (n mod m)); nia.
Qed.

Lemma startof_0 n m : 0 < m -> startof n m 0 = 0.
Proof. intros. unfold startof. pose proof (Z.mod_pos_bound n m H). lia. Qed.

Lemma startof_m n m : 0 < m -> startof n m m = n.
Proof. intros. unfold startof. pose proof (Z.mod_pos_bound n m H). pose proof (Z.div_mod n m). nia. Qed.

Lemma work_nonneg n m r : 0 <= n -> 0 < m -> 0 <= work n m r.
Proof. intros. unfold work, b2z. pose proof (Z.div_pos n m). destruct (_ <? _); lia. Qed.

Lemma split_loop_length k n m r s : length (split_loop k n m r s) = k.
Proof. revert r s; induction k; simpl; intros; auto. Qed.

Lemma split_all_length n m : length (split_all n m) = Z.to_nat m.
Proof. apply split_loop_length. Qed.

Lemma split_loop_nth k n m r i : 0 < m -> (i < k)%nat ->
  nth_error (split_loop k n m r (startof n m r)) i
  = Some (startof n m (r + Z.of_nat i), startof n m (r + Z.of_nat i) + work n m (r + Z.of_nat i)).
Proof.
  intros Hm. revert r i. induction k as [|k IH]; intros r i Hi; [lia|].
  cbn [split_loop]. destruct i as [|i].
  - cbn. rewrite Z.add_0_r. reflexivity.
  - cbn [nth_error]. rewrite <- startof_succ by assumption. rewrite IH by lia.
    replace (r + 1 + Z.of_nat i) with (r + Z.of_nat (S i)) by lia. reflexivity.
Qed.

Lemma split_all_nth n m i : 0 < m -> (i < Z.to_nat m)%nat ->
  nth_error (split_all n m) i
  = Some (startof n m (Z.of_nat i), startof n m (Z.of_nat i) + work n m (Z.of_nat i)).
Proof.
  intros Hm Hi. unfold split_all. pose proof (split_loop_nth (Z.to_nat m) n m 0 i Hm Hi) as H.
  rewrite startof_0 in H by assumption. rewrite H. reflexivity.
Qed.

Lemma split_rank_nth n m r : 0 < m -> 0 <= r < m ->
  exists s, split_rank n m r = Ok s /\ nth_error (split_all n m) (Z.to_nat r) = Some s.
Proof.
  intros Hm Hr. unfold split_rank. destruct (Z.eqb_spec m 0); [lia|].
  rewrite split_all_nth by lia. rewrite Z2Nat.id by lia. eexists; split; reflexivity.
Qed.

Lemma split_loop_chain k n m r : 0 <= n -> 0 < m ->
  chain (startof n m r) (startof n m (r + Z.of_nat k)) (split_loop k n m r (startof n m r)).
Proof.
  intros Hn Hm. revert r. induction k as [|k IH]; intros r; cbn [split_loop chain].
  - f_equal; lia.
  - pose proof (work_nonneg n m r Hn Hm). repeat split; [lia|].
    rewrite <- startof_succ by assumption.
    replace (r + Z.of_nat (S k)) with (r + 1 + Z.of_nat k) by lia. apply IH.
Qed.

Lemma split_all_chain n m : 0 <= n -> 0 < m -> chain 0 n (split_all n m).
Proof.
  intros Hn Hm. pose proof (split_loop_chain (Z.to_nat m) n m 0 Hn Hm) as H.
  rewrite startof_0 in H by assumption. rewrite Z.add_0_l, Z2Nat.id in H by lia.
  rewrite startof_m in H by assumption. exact H.
Qed.

Lemma work_balanced n m i j : i <= j -> work n m j <= work n m i <= work n m j + 1.
Proof. intros. unfold work, b2z. destruct (Z.ltb_spec i (n mod m)), (Z.ltb_spec j (n mod m)); lia. Qed.

Lemma nth_error_lt {A} (l : list A) i x : nth_error l i = Some x -> (i < length l)%nat.
Proof. intros H. apply nth_error_Some. congruence. Qed.

Lemma split_all_balanced n m : 0 < m -> balanced (split_all n m).
Proof.
  intros Hm i j s e s' e' Hij Hi Hj.
  pose proof (nth_error_lt _ _ _ Hi) as Hli. pose proof (nth_error_lt _ _ _ Hj) as Hlj.
  rewrite split_all_length in Hli, Hlj.
  rewrite split_all_nth in Hi, Hj by assumption.
  injection Hi as <- <-. injection Hj as <- <-.
  pose proof (work_balanced n m (Z.of_nat i) (Z.of_nat j)). lia.
Qed.

(** Intervals chained from a to b enumerate a..b-1. *)
Lemma interval_app a b c : a <= b -> b <= c -> interval a b ++ interval b c = interval a c.
Proof.
  intros. unfold interval.
  replace (Z.to_nat (c - a)) with (Z.to_nat (b - a) + Z.to_nat (c - b))%nat by lia.
  rewrite seq_app, map_app. f_equal. cbn.
  replace (seq (Z.to_nat (b - a)) (Z.to_nat (c - b))) with (map (fun i => (Z.to_nat (b - a) + i)%nat) (seq 0 (Z.to_nat (c - b)))).
  - rewrite map_map. apply map_ext. intros. lia.
  - assert (G : forall d k z, map (fun i => (d + i)%nat) (seq z k) = seq (d + z) k).
    { intros d k. induction k; intros z; cbn; [reflexivity|]. f_equal. rewrite <- Nat.add_succ_r. apply IHk. }
    rewrite G, Nat.add_0_r. reflexivity.
Qed.

Lemma chain_le a b l : chain a b l -> a <= b.
Proof. revert a; induction l as [|[s e] l IH]; cbn; intros a H; [lia|]. destruct H as (-> & H & C). apply IH in C. lia. Qed.

Lemma chain_cover a b l : chain a b l -> concat (map (fun s => interval (fst s) (snd s)) l) = interval a b.
Proof.
  revert a; induction l as [|[s e] l IH]; cbn; intros a H.
  - subst. unfold interval. rewrite Z.sub_diag. reflexivity.
  - destruct H as (-> & Hle & C). rewrite (IH _ C). apply interval_app; [assumption| apply (chain_le _ _ _ C)].
Qed.

Lemma split_all_cover n m : 0 <= n -> 0 < m ->
  concat (map (fun s => interval (fst s) (snd s)) (split_all n m)) = interval 0 n.
Proof. intros. apply chain_cover, split_all_chain; assumption. Qed.

Lemma split_full n m : 0 <= n -> 0 < m ->
  length (split_all n m) = Z.to_nat m
  /\ chain 0 n (split_all n m)
  /\ concat (map (fun s => interval (fst s) (snd s)) (split_all n m)) = interval 0 n
  /\ balanced (split_all n m)
  /\ (forall r, 0 <= r < m -> exists s, split_rank n m r = Ok s /\ nth_error (split_all n m) (Z.to_nat r) = Some s).
Proof.
  intros Hn Hm. repeat split.
  - apply split_all_length.
  - apply split_all_chain; assumption.
  - apply split_all_cover; assumption.
  - apply (split_all_balanced n m Hm i j s e s' e'); assumption.
  - apply (split_all_balanced n m Hm i j s e s' e'); assumption.
  - intros. apply split_rank_nth; assumption.
Qed.

(** ** Distribution of shapes *)

Lemma split_rank_eq_slice n m r : split_rank n m r = distribute_slice n r m.
Proof. reflexivity. Qed.

Lemma nth_error_repeat {A} (a : A) k i : (i < k)%nat -> nth_error (repeat a k) i = Some a.
Proof. revert i; induction k; intros i H; [lia|]. destruct i; cbn; [reflexivity|]. apply IHk; lia. Qed.

Lemma distribute_shapes_nth n tl size r : 0 < size -> 0 <= r < size ->
  exists l, distribute_shapes (n :: tl) size = Ok l /\ length l = Z.to_nat size
    /\ nth_error l (Z.to_nat r) = Some (work n size r :: tl).
Proof.
  intros Hs Hr. unfold distribute_shapes. destruct (Z.eqb_spec size 0); [lia|].
  eexists; split; [reflexivity|].
  pose proof (Z.mod_pos_bound n size Hs).
  split.
  - rewrite app_length, !repeat_length. lia.
  - unfold work, b2z. destruct (Z.ltb_spec r (n mod size)).
    + rewrite nth_error_app1 by (rewrite repeat_length; lia). apply nth_error_repeat; lia.
    + rewrite nth_error_app2 by (rewrite repeat_length; lia). rewrite repeat_length.
      rewrite nth_error_repeat by lia. do 2 f_equal. lia.
Qed.

Lemma nth_error_ext {A} (l l' : list A) : (forall i, nth_error l i = nth_error l' i) -> l = l'.
Proof.
  revert l'; induction l as [|a l IH]; intros [|b l'] H.
  - reflexivity.
  - specialize (H O); discriminate.
  - specialize (H O); discriminate.
  - f_equal. { specialize (H O). cbn in H. congruence. } apply IH. intros i. apply (H (S i)).
Qed.

(** All the ranks' shapes. *)
Definition all_local (n : Z) (tl : shape) (size : Z) : list shape :=
  map (fun r => work n size (Z.of_nat r) :: tl) (seq 0 (Z.to_nat size)).

Lemma distribute_shapes_all n tl size : 0 < size -> distribute_shapes (n :: tl) size = Ok (all_local n tl size).
Proof.
  intros Hs. destruct (distribute_shapes_nth n tl size 0 Hs ltac:(lia)) as (l & E & L & _).
  rewrite E. f_equal. apply nth_error_ext. intros i. unfold all_local.
  destruct (Nat.lt_ge_cases i (Z.to_nat size)) as [Hi|Hi].
  - destruct (distribute_shapes_nth n tl size (Z.of_nat i) Hs ltac:(lia)) as (l' & E' & _ & N).
    rewrite E in E'. injection E' as <-. rewrite Nat2Z.id in N. rewrite N.
    rewrite nth_error_map. rewrite (nth_error_nth' _ 0%nat) by (rewrite seq_length; lia).
    rewrite seq_nth by lia. reflexivity.
  - transitivity (@None shape); [|symmetry]; apply nth_error_None; [lia|]. rewrite map_length, seq_length. lia.
Qed.

Lemma zlist_eqb_spec a b : zlist_eqb a b = true <-> a = b.
Proof.
  revert b; induction a as [|x a IH]; intros [|y b]; cbn; split; intros H; try congruence.
  - apply andb_true_iff in H as [H1 H2]. apply IH in H2. f_equal; [lia|assumption].
  - injection H as -> ->. rewrite Z.eqb_refl. cbn. apply IH. reflexivity.
Qed.

Lemma zsum_acc l a : fold_left Z.add l a = a + fold_left Z.add l 0.
Proof. revert a; induction l as [|x l IH]; cbn [fold_left]; intros; [lia|]. rewrite IH, (IH (0 + x)). lia. Qed.

Lemma zsum_cons a l : zsum (a :: l) = a + zsum l.
Proof. unfold zsum. cbn [fold_left]. rewrite zsum_acc. lia. Qed.

Lemma zsum_app a b : zsum (a ++ b) = zsum a + zsum b.
Proof. induction a; [reflexivity|]. cbn [app]. rewrite !zsum_cons, IHa. lia. Qed.

Lemma sum_work k n m : 0 < m ->
  zsum (map (fun r => work n m (Z.of_nat r)) (seq 0 k)) = startof n m (Z.of_nat k).
Proof.
  intros Hm. induction k as [|k IH].
  - cbn. rewrite startof_0 by assumption. reflexivity.
  - rewrite seq_S, map_app, zsum_app, IH. cbn [map Nat.add]. rewrite zsum_cons.
    replace (Z.of_nat (S k)) with (Z.of_nat k + 1) by lia. rewrite startof_succ by assumption. cbn. lia.
Qed.

Lemma rmap_heads tl (f : nat -> Z) l :
  rmap (fun s => match s with [] => Raise IndexError | x :: _ => Ok x end) (map (fun r => f r :: tl) l)
  = Ok (map f l).
Proof. induction l; cbn; [reflexivity|]. rewrite IHl. reflexivity. Qed.

Lemma combine_all_local n tl size : 0 < size -> combine_shape (all_local n tl size) = Ok (n :: tl).
Proof.
  intros Hs. unfold combine_shape.
  assert (Hc : exists c, all_local n tl size = (work n size 0 :: tl) :: c).
  { unfold all_local. destruct (Z.to_nat size) eqn:E; [lia|]. cbn. eexists; reflexivity. }
  destruct Hc as (c & Hc).
  remember (all_local n tl size) as al eqn:Hal. rewrite Hc at 1. cbn [Datatypes.length List.tl].
  match goal with |- context[existsb ?f al] => assert (HE : existsb f al = false) end.
  { apply not_true_is_false. intros H. apply existsb_exists in H as (s & Hin & H).
    rewrite Hal in Hin. unfold all_local in Hin. apply in_map_iff in Hin as (r & <- & _).
    cbn [Datatypes.length List.tl] in H.
    rewrite Nat.eqb_refl in H. cbn in H. assert (E : zlist_eqb tl tl = true) by (apply zlist_eqb_spec; reflexivity).
    rewrite E in H. discriminate. }
  rewrite HE. rewrite Hal. unfold all_local. rewrite rmap_heads. cbn [rbind].
  rewrite sum_work by assumption. rewrite Z2Nat.id by lia. rewrite startof_m by assumption. reflexivity.
Qed.

Lemma combine_shape_ok shapes r : combine_shape shapes = Ok r <->
  exists heads tl, heads <> [] /\ shapes = map (fun h => h :: tl) heads /\ r = zsum heads :: tl.
Proof.
  split.
  - unfold combine_shape. destruct shapes as [|s0 l]; [discriminate|].
    remember (s0 :: l) as shapes eqn:Es.
    match goal with |- context[existsb ?f shapes] => destruct (existsb f shapes) eqn:EX end; [discriminate|].
    match goal with |- context[rmap ?f shapes] => destruct (rmap f shapes) as [heads|e] eqn:ER end; [|discriminate].
    cbn [rbind]. intros H; injection H as <-.
    exists heads, (tl s0).
    assert (HA : forall s, In s shapes -> length s = length s0 /\ tl s = tl s0).
    { intros s Hin. destruct (Nat.eqb_spec (length s) (length s0)) as [E1|E1];
      destruct (zlist_eqb (tl s) (tl s0)) eqn:E2.
      - apply zlist_eqb_spec in E2. auto.
      - exfalso. assert (existsb (fun s => negb (length s =? length s0)%nat || negb (zlist_eqb (tl s) (tl s0))) shapes = true).
        { apply existsb_exists. exists s. rewrite E2, orb_true_r. auto. } congruence.
      - exfalso. assert (existsb (fun s => negb (length s =? length s0)%nat || negb (zlist_eqb (tl s) (tl s0))) shapes = true).
        { apply existsb_exists. exists s. apply Nat.eqb_neq in E1. rewrite E1. auto. } congruence.
      - exfalso. assert (existsb (fun s => negb (length s =? length s0)%nat || negb (zlist_eqb (tl s) (tl s0))) shapes = true).
        { apply existsb_exists. exists s. apply Nat.eqb_neq in E1. rewrite E1. auto. } congruence. }
    assert (HM : shapes = map (fun h => h :: tl s0) heads).
    { clear EX Es. revert heads ER HA. induction shapes as [|s shapes IH]; cbn; intros heads ER HA.
      - injection ER as <-. reflexivity.
      - destruct s as [|h t]; [discriminate|]. cbn in ER.
        match type of ER with context[rmap ?f shapes] => destruct (rmap f shapes) as [hs|] end; [|discriminate]. injection ER as <-. cbn.
        f_equal.
        + destruct (HA (h :: t) (or_introl eq_refl)) as [_ T]. cbn in T. congruence.
        + apply IH; [reflexivity|]. intros; apply HA; auto. }
    repeat split; auto. intros ->. rewrite Es in HM. discriminate.
  - intros (heads & tl & Hne & -> & ->). destruct heads as [|h heads]; [congruence|].
    unfold combine_shape. cbn [map]. cbn [Datatypes.length List.tl].
    match goal with |- context[existsb ?f ?al] => assert (HE : existsb f al = false) end.
    { apply not_true_is_false. intros H. apply existsb_exists in H as (s & Hin & H).
      change ((h :: tl) :: map (fun h => h :: tl) heads) with (map (fun h => h :: tl) (h :: heads)) in Hin.
      apply in_map_iff in Hin as (r & <- & _). cbn [Datatypes.length List.tl] in H.
      rewrite Nat.eqb_refl in H. cbn in H. assert (E : zlist_eqb tl tl = true) by (apply zlist_eqb_spec; reflexivity).
      rewrite E in H. discriminate. }
    rewrite HE.
    assert (HR : forall hs, rmap (fun s : list Z => match s with [] => Raise IndexError | x :: _ => Ok x end)
        (map (fun h => h :: tl) hs) = Ok hs).
    { induction hs; cbn; [reflexivity|]. rewrite IHhs. reflexivity. }
    change ((h :: tl) :: map (fun h => h :: tl) heads) with (map (fun h => h :: tl) (h :: heads)).
    rewrite HR. reflexivity.
Qed.

(** ** Distribution of arrays *)

Lemma skipn_skipn {A} a b (l : list A) : skipn a (skipn b l) = skipn (b + a) l.
Proof. revert l; induction b; intros l; [reflexivity|]. destruct l; cbn; [apply skipn_nil|apply IHb]. Qed.

Lemma blit_length {A} (out : list A) o v : (o + length v <= length out)%nat -> length (blit out o v) = length out.
Proof. intros. unfold blit. rewrite !app_length, firstn_length, skipn_length. lia. Qed.

(** Pieces of x placed one after the other from position p rebuild x beyond p. *)
Lemma allgatherv_chain {A} (x out : list A) (rs : Z) sl a n :
  0 <= rs -> 0 <= a -> chain a n sl -> Z.of_nat (length x) = n * rs -> length out = length x ->
  firstn (Z.to_nat (a * rs)) out = firstn (Z.to_nat (a * rs)) x ->
  let co := counts_offsets sl rs (a * rs) in
  allgatherv (map (rows x rs) sl) (fst co) (removelast ((a * rs) :: snd co)) out = Ok x.
Proof.
  intros Hrs. revert a out. induction sl as [|[s e] sl IH]; intros a out Ha Hc Hx Ho Hp; cbn zeta.
  - cbn in Hc. subst a. cbn. f_equal.
    rewrite <- (firstn_all x), <- (firstn_all out). rewrite Ho.
    replace (length x) with (Z.to_nat (n * rs)) by lia. exact Hp.
  - cbn [chain] in Hc. destruct Hc as (-> & Hse & Hc). pose proof (chain_le _ _ _ Hc).
    cbn [counts_offsets map].
    specialize (IH e). 
    destruct (counts_offsets sl rs (a * rs + (e - a) * rs)) as [cs os] eqn:E.
    cbn [fst snd].
    assert (EL : Z.of_nat (length (rows x rs (a, e))) = (e - a) * rs).
    { unfold rows. cbn [fst snd]. rewrite firstn_length, skipn_length.
      assert (0 <= (e-a)*rs) by nia. assert (0 <= a * rs) by nia. assert (e * rs <= n * rs) by nia.
      assert ((e-a)*rs = e * rs - a * rs) by nia. lia. }
    replace (removelast (a * rs :: (a * rs + (e - a) * rs) :: os))
      with (a * rs :: removelast ((a * rs + (e - a) * rs) :: os)) by reflexivity.
    cbn [allgatherv]. rewrite EL, Z.eqb_refl.
    assert (HER : a * rs + (e - a) * rs = e * rs) by lia.
    rewrite HER in *. rewrite E in IH. cbn [fst snd] in IH.
    assert (0 <= (e-a)*rs) by nia. assert (0 <= a * rs) by nia. assert (e * rs <= n * rs) by nia.
    apply IH; [lia|exact Hc|exact Hx| |].
    + rewrite blit_length; [exact Ho|]. lia.
    + unfold blit. rewrite firstn_app. rewrite firstn_length.
      replace (Nat.min (Z.to_nat (a * rs)) (length out)) with (Z.to_nat (a * rs)) by lia.
      rewrite firstn_firstn. replace (Nat.min (Z.to_nat (e * rs)) (Z.to_nat (a * rs))) with (Z.to_nat (a * rs)) by lia.
      rewrite firstn_app. replace (Z.to_nat (e * rs) - Z.to_nat (a * rs) - length (rows x rs (a,e)))%nat with 0%nat by lia.
      cbn [firstn]. rewrite app_nil_r. rewrite (firstn_all2 (rows x rs (a,e))) by lia.
      rewrite Hp. unfold rows. cbn [fst snd].
      rewrite <- (firstn_skipn (Z.to_nat (a * rs)) (firstn (Z.to_nat (e * rs)) x)).
      rewrite firstn_firstn. replace (Nat.min (Z.to_nat (a * rs)) (Z.to_nat (e * rs))) with (Z.to_nat (a * rs)) by lia.
      f_equal. rewrite skipn_firstn_comm. f_equal. lia.
Qed.

Lemma rmap_ext {A B} (f g : A -> result B) l : (forall a, In a l -> f a = g a) -> rmap f l = rmap g l.
Proof. induction l; cbn; intros H; [reflexivity|]. rewrite H by auto. rewrite IHl by auto. reflexivity. Qed.

Lemma rmap_ok {A B} (g : A -> B) l : rmap (fun a => Ok (g a)) l = Ok (map g l).
Proof. induction l; cbn; [reflexivity|]. rewrite IHl. reflexivity. Qed.

Lemma split_all_map n m : 0 < m ->
  split_all n m = map (fun r => (startof n m (Z.of_nat r), startof n m (Z.of_nat r) + work n m (Z.of_nat r))) (seq 0 (Z.to_nat m)).
Proof.
  intros Hm. apply nth_error_ext. intros i. destruct (Nat.lt_ge_cases i (Z.to_nat m)).
  - rewrite split_all_nth by assumption. rewrite nth_error_map.
    rewrite (nth_error_nth' _ 0%nat) by (rewrite seq_length; lia). rewrite seq_nth by lia. reflexivity.
  - transitivity (@None slice); [|symmetry]; apply nth_error_None.
    + rewrite split_all_length. lia.
    + rewrite map_length, seq_length. lia.
Qed.

Lemma zprod_nonneg l : Forall (fun d => 0 <= d) l -> 0 <= zprod l.
Proof.
  intros H. unfold zprod. assert (forall a, 0 <= a -> 0 <= fold_left Z.mul l a) as G; [|apply G; lia].
  induction H; cbn; intros; [assumption|]. apply IHForall. nia.
Qed.

Lemma distribute_gather {A} n tl size (x out : list A) :
  0 <= n -> 0 < size -> Forall (fun d => 0 <= d) tl ->
  Z.of_nat (length x) = n * zprod tl -> length out = length x ->
  exists locals,
    rmap (fun r => global_direct (n :: tl) size (Z.of_nat r) x) (seq 0 (Z.to_nat size)) = Ok locals
    /\ global_transpose (n :: tl) size locals out = Ok x
    /\ concat locals = x.
Proof.
  intros Hn Hs Htl Hx Ho.
  exists (map (rows x (zprod tl)) (split_all n size)).
  pose proof (zprod_nonneg tl Htl) as Hrs.
  assert (HL : rmap (fun r => global_direct (n :: tl) size (Z.of_nat r) x) (seq 0 (Z.to_nat size)) =
     Ok (map (rows x (zprod tl)) (split_all n size))).
  { rewrite split_all_map by assumption. rewrite map_map.
    rewrite <- rmap_ok. apply rmap_ext. intros r Hr. unfold global_direct, split_rank.
    destruct (Z.eqb_spec size 0); [lia|]. cbn [rbind]. unfold startof. reflexivity. }
  split; [exact HL|]. split.
  - unfold global_transpose, global_counts_offsets.
    pose proof (allgatherv_chain x out (zprod tl) (split_all n size) 0 n Hrs ltac:(lia) (split_all_chain n size Hn Hs) Hx Ho) as G.
    cbn zeta in G. rewrite Z.mul_0_l in G.
    destruct (counts_offsets (split_all n size) (zprod tl) 0) as [cs os]. cbn [rbind fst snd] in *.
    apply G. reflexivity.
  - pose proof (split_all_chain n size Hn Hs) as Hc.
    assert (G : forall sl a, 0 <= a -> chain a n sl ->
      concat (map (rows x (zprod tl)) sl) = skipn (Z.to_nat (a * zprod tl)) x).
    { induction sl as [|[s e] sl IH]; intros a Ha C; cbn in C |- *.
      - subst. rewrite skipn_all2; [reflexivity|]. lia.
      - destruct C as (-> & Hse & C). rewrite (IH e) by (auto; lia). unfold rows; cbn [fst snd].
        rewrite <- (firstn_skipn (Z.to_nat ((e - a) * zprod tl)) (skipn (Z.to_nat (a * zprod tl)) x)) at 2.
        f_equal. rewrite skipn_skipn. f_equal. nia. }
    rewrite (G _ 0) by (auto; lia). reflexivity.
Qed.

Lemma split_errors n r :
  split_rank n 0 r = Raise ZeroDivisionError /\ (forall m, m <= 0 -> split_all n m = []).
Proof.
  split; [reflexivity|]. intros m Hm. unfold split_all.
  replace (Z.to_nat m) with O by lia. reflexivity.
Qed.

Lemma distribute_agree n tl size r : 0 <= n -> 0 < size -> 0 <= r < size ->
  exists l s e,
    distribute_shapes (n :: tl) size = Ok l
    /\ length l = Z.to_nat size
    /\ nth_error (split_all n size) (Z.to_nat r) = Some (s, e)
    /\ distribute_slice n r size = Ok (s, e)
    /\ distribute n r size = Ok (e - s)
    /\ distribute_shape (n :: tl) r size = Ok ((e - s) :: tl)
    /\ nth_error l (Z.to_nat r) = Some ((e - s) :: tl).
Proof.
  intros Hn Hs Hr. destruct (distribute_shapes_nth n tl size r Hs Hr) as (l & E & L & N).
  exists l, (startof n size r), (startof n size r + work n size r).
  replace (startof n size r + work n size r - startof n size r) with (work n size r) by lia.
  repeat split; auto.
  - rewrite split_all_nth by lia. rewrite Z2Nat.id by lia. reflexivity.
  - unfold distribute_slice. destruct (Z.eqb_spec size 0); [lia|]. reflexivity.
  - unfold distribute. destruct (Z.eqb_spec size 0); [lia|]. reflexivity.
  - unfold distribute_shape. destruct (Z.eqb_spec size 0); [lia|]. reflexivity.
Qed.

Lemma distribute_combine n tl size : 0 < size ->
  exists locals,
    rmap (fun r => distribute_shape (n :: tl) (Z.of_nat r) size) (seq 0 (Z.to_nat size)) = Ok locals
    /\ combine_shape locals = Ok (n :: tl).
Proof.
  intros Hs. exists (all_local n tl size). split; [|apply combine_all_local; assumption].
  unfold all_local. rewrite <- rmap_ok. apply rmap_ext. intros r _.
  unfold distribute_shape. destruct (Z.eqb_spec size 0); [lia|]. reflexivity.
Qed.

Lemma distribute_scalar rank size :
  (1 < size -> distribute_shape [] rank size = Raise ValueError)
  /\ (size = 1 -> distribute_shape [] rank size = Ok []).
Proof. split; intros H; unfold distribute_shape; destruct (Z.ltb_spec 1 size); try reflexivity; lia. Qed.

Lemma combine_shape_error shapes : shapes <> [] -> ~ In [] shapes ->
  (exists r, combine_shape shapes = Ok r) \/
  (combine_shape shapes = Raise ValueError
   /\ exists s s', In s shapes /\ In s' shapes /\ tl s <> tl s').
Proof.
  intros Hne Hnn. destruct (combine_shape shapes) as [r|e] eqn:E; [left; eauto|right].
  destruct shapes as [|s0 l]; [congruence|].
  unfold combine_shape in E.
  remember (s0 :: l) as shapes eqn:Es.
  match type of E with context[existsb ?f shapes] => destruct (existsb f shapes) eqn:EX end.
  - injection E as <-. split; [reflexivity|].
    apply existsb_exists in EX as (s & Hin & H). exists s, s0.
    assert (In s0 shapes) by (subst; left; reflexivity).
    repeat split; auto. intros HT. apply orb_true_iff in H as [H|H].
    + apply negb_true_iff, Nat.eqb_neq in H.
      destruct s as [|a s]; [tauto|]. destruct s0 as [|b s0]; [tauto|]. cbn in HT. subst s0. cbn in H. lia.
    + apply negb_true_iff in H. rewrite HT in H.
      assert (E2 : zlist_eqb (tl s0) (tl s0) = true) by (apply zlist_eqb_spec; reflexivity). congruence.
  - exfalso. clear EX Hne Es.
    assert (G : exists hs, rmap (fun s : list Z => match s with [] => Raise IndexError | x :: _ => Ok x end) shapes = Ok hs).
    { clear E. induction shapes as [|s shapes IH]; cbn; [eauto|].
      destruct s; [exfalso; apply Hnn; left; reflexivity|]. cbn.
      destruct (IH (fun h => Hnn (or_intror h))) as (hs & ->). cbn. eauto. }
    destruct G as (hs & G). rewrite G in E. discriminate.
Qed.
