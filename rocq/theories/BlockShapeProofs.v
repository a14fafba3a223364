From Verif Require Import Base Algebra SeqModel BlockModel BlockSpec BlockProofs BlockRules BlockShapeModel BlockShapeSpec.

Lemma map_nth_seq {X} (f : nat -> X) l : map (fun k => f (nth k l 0)) (seq 0 (length l)) = map f l.
Proof.
  induction l as [|n l IH]; auto. cbn [length seq map]. f_equal. rewrite <- IH, <- seq_shift, map_map. reflexivity.
Qed.
Lemma rmap_ok {X Y} (f : X -> result Y) (g : X -> Y) l : (forall x, In x l -> f x = Ok (g x)) -> rmap f l = Ok (map g l).
Proof. induction l as [|x l IH]; intros H; auto. cbn. rewrite H by (left; auto). cbn. rewrite IH; auto. intros; apply H; right; auto. Qed.
Lemma map_const {X Y} (c : Y) (l : list X) : map (fun _ => c) l = repeat c (length l).
Proof. induction l; cbn; congruence. Qed.
Lemma sizes_length p l : sizes_ok p l -> length p = length l.
Proof. unfold sizes_ok. induction 1; cbn; congruence. Qed.
Lemma existsb_known l : existsb is_none (map (@Some nat) l) = false.
Proof. induction l; auto. Qed.

Lemma py_del_pos l z a : position (NewAxis z) (length l) = Some a -> py_del l z = Ok (remove_at a l).
Proof.
  unfold position, py_del, remove_at. cbv zeta. cbn [axis_value]. set (i := if (0 <=? z)%Z then _ else _).
  destruct (Z.leb_spec 0 i); [|discriminate]. destruct (Z.ltb_spec i (Z.of_nat (length l))); [|discriminate]. cbn [andb]. intros [= <-].
  destruct (Z.ltb_spec i 0); [lia|]. destruct (Z.leb_spec (Z.of_nat (length l)) i); [lia|]. reflexivity.
Qed.
Lemma position_axis z n : position (Axis z) n = position (NewAxis z) n.
Proof. reflexivity. Qed.
Lemma py_pos_position (l : list nat) z a : position (Axis z) (length l) = Some a -> py_pos l z = a.
Proof.
  unfold position, py_pos. cbv zeta. cbn [axis_value]. destruct (Z.leb_spec 0 z).
  - destruct ((0 <=? z)%Z && (z <? Z.of_nat (length l))%Z); [|discriminate]. congruence.
  - destruct (Z.leb_spec 0 (z + Z.of_nat (length l))); [|discriminate]. destruct (z + Z.of_nat (length l) <? Z.of_nat (length l))%Z; [|discriminate].
    intros [= <-]. lia.
Qed.

Lemma operands_ok pl axin si n : side_ok (match axin with Some _ => Some (map Some pl) | None => None end) pl axin si ->
  (axin <> None -> n = length pl) ->
  get_shape_operands (Some si) (match axin with Some _ => Some (map Some pl) | None => None end) n axin
  = Ok (map (fun k => Some (piece_shape axin pl k si)) (seq 0 n)).
Proof.
  intros S N. destruct axin as [ax|]; cbn [get_shape_operands].
  - rewrite (N ltac:(discriminate)). clear N n. destruct S as (p' & a & [= <-] & _ & HP). rewrite existsb_known, map_length.
    unfold piece_shape. rewrite (proj1 HP). destruct ax as [z|z].
    + rewrite (map_nth_seq (fun n => Some (set_nth si a n)) pl).
      rewrite (rmap_ok _ (fun o => Some (set_nth si a (match o with Some n => n | None => 0 end)))).
      * rewrite map_map. reflexivity.
      * intros o _. rewrite (py_set_pos _ _ a) by apply HP. reflexivity.
    + rewrite (py_del_pos _ _ a) by apply HP. cbn [rbind]. rewrite map_const, seq_length. reflexivity.
  - cbn [piece_shape]. rewrite map_const, seq_length. reflexivity.
Qed.

Lemma explicits_some {X} (f : X -> list nat) l : explicits (map (fun x => Some (f x)) l) = map f l.
Proof. induction l; cbn; congruence. Qed.
Lemma shape_eqb_refl s : shape_eqb s s = true.
Proof. unfold shape_eqb. destruct (list_eq_dec Nat.eq_dec s s); congruence. Qed.
Lemma differ_const {X} (c : list nat) (l : list X) : existsb (fun s => negb (shape_eqb s c)) (map (fun _ => c) l) = false.
Proof. induction l; cbn; auto. rewrite shape_eqb_refl. auto. Qed.
Lemma merge_sizes p l : sizes_ok p l -> merge_none nat none_eqb (Some p) (Some (map Some l)) = Ok (Some (map Some l)).
Proof.
  intros H. unfold merge_none. rewrite map_length. assert (HL := sizes_length _ _ H). rewrite HL, Nat.eqb_refl. cbn [negb].
  assert (existsb (fun pq => differ nat none_eqb (fst pq) (snd pq)) (filter (fun pq => negb (isnone nat (fst pq) || isnone nat (snd pq))) (combine p (map Some l))) = false
    /\ map (fun pq => if isnone nat (fst pq) then snd pq else fst pq) (combine p (map Some l)) = map Some l) as [-> ->]; auto.
  clear HL. induction H as [|o n p l [->| ->] H [IH1 IH2]]; cbn; auto.
  - split; auto. f_equal. auto.
  - rewrite IH1, IH2. unfold none_eqb. rewrite Nat.eqb_refl. auto.
Qed.
Lemma axis_ok_true so a z p l : position (Axis z) (length so) = Some a -> sizes_ok p l ->
  axis_ok (map (fun n => Some (set_nth so a n)) l) p z = Ok true.
Proof.
  intros HP H. assert (HA := position_lt _ _ _ HP). induction H as [|o n p l H H' IH]; auto. cbn [map axis_ok]. destruct H as [->| ->].
  - cbn [rbind]. rewrite IH. reflexivity.
  - rewrite (py_nth_pos _ _ a) by (rewrite set_nth_length; auto). cbn [rbind]. rewrite IH. cbn [rbind]. rewrite nth_set_nth by auto. rewrite Nat.eqb_refl. reflexivity.
Qed.
Lemma nth_set_other (l : list nat) a n i : i <> a -> a < length l -> nth i (set_nth l a n) 0 = nth i l 0.
Proof.
  intros N H. destruct (at_split l a H) as (u & x & v & -> & <-). rewrite set_nth_app.
  destruct (Nat.lt_ge_cases i (length u)).
  - rewrite !app_nth1 by auto. reflexivity.
  - rewrite !app_nth2 by lia. destruct (i - length u) eqn:E; [lia|]. reflexivity.
Qed.
Lemma set_set (l : list nat) a n m : a < length l -> set_nth (set_nth l a n) a m = set_nth l a m.
Proof. intros H. destruct (at_split l a H) as (u & x & v & -> & <-). rewrite !set_nth_app. reflexivity. Qed.
Lemma set_same (l : list nat) a : a < length l -> set_nth l a (nth a l 0) = l.
Proof. intros H. destruct (at_split l a H) as (u & x & v & -> & <-). rewrite set_nth_app, nth_middle. reflexivity. Qed.

Lemma composite_ok pout pl axout so n : side_ok pout pl axout so -> (axout <> None -> n = length pl) -> n <> 0 ->
  get_shape_composite (map (fun k => Some (piece_shape axout pl k so)) (seq 0 n)) pout axout = Ok (Some so).
Proof.
  intros S N N0. destruct axout as [ax|].
  - rewrite (N ltac:(discriminate)) in *. clear N n. destruct S as (p & a & -> & HS & HP). assert (HA := position_lt _ _ _ (proj1 HP)).
    unfold piece_shape. rewrite (proj1 HP). unfold get_shape_composite. destruct ax as [z|z].
    + rewrite (map_nth_seq (fun n => Some (set_nth so a n)) pl). rewrite explicits_some.
      destruct pl as [|n0 pl0] eqn:Ep; [cbn in N0; congruence|]. cbn [map]. rewrite <- Ep in *.
      change (set_nth so a n0 :: map (set_nth so a) pl0) with (map (set_nth so a) (n0 :: pl0)). change (Some (set_nth so a n0) :: map (fun n => Some (set_nth so a n)) pl0) with (map (fun n => Some (set_nth so a n)) (n0 :: pl0)). rewrite <- Ep.
      assert (existsb (fun s => negb (Nat.eqb (length s) (length (set_nth so a n0)))) (map (set_nth so a) pl) = false) as ->.
      { clear. induction pl as [|n l IH]; auto. cbn [map existsb]. rewrite IH. 
        assert (forall m m', length (set_nth so a m) = length (set_nth so a m')) as H.
        { intros. unfold set_nth. rewrite !app_length. destruct (skipn a so); reflexivity. }
        rewrite (H n n0), Nat.eqb_refl. reflexivity. }
      rewrite (axis_ok_true so a z p pl) by (auto; apply HP). cbn [rbind negb].
      assert (dims_ok (map (set_nth so a) pl) (set_nth so a n0) z = true) as ->.
      { unfold dims_ok. apply forallb_forall. intros i Hi. apply orb_true_iff. rewrite (py_pos_position _ _ a) by (rewrite set_nth_length by auto; apply HP).
        destruct (Nat.eqb_spec i a); [left; auto|right]. apply forallb_forall. intros s Hs. apply in_map_iff in Hs as (m & <- & _).
        rewrite !nth_set_other by auto. apply Nat.eqb_refl. }
      rewrite andb_false_r.
      rewrite (rmap_ok _ (fun o => Some (nth a (match o with Some s => s | None => [] end) 0))).
      2: { intros o Ho. apply in_map_iff in Ho as (m & <- & _). rewrite (py_nth_pos _ _ a) by (rewrite set_nth_length by auto; apply HP). reflexivity. }
      cbn [rbind]. rewrite map_map.
      assert (map (fun x => Some (nth a (set_nth so a x) 0)) pl = map Some pl) as -> by (apply map_ext; intros m; rewrite nth_set_nth; auto).
      rewrite merge_sizes by auto. cbn [rbind]. rewrite existsb_known, map_map, map_id.
      rewrite (py_set_pos _ _ a) by (rewrite set_nth_length by auto; apply HP). cbn [rbind]. rewrite set_set by auto.
      rewrite (partitioned_sum _ _ _ _ HP) || rewrite (proj2 HP). rewrite set_same; auto.
    + rewrite explicits_some. destruct (seq 0 (length pl)) as [|k l] eqn:Es; [destruct pl; [cbn in N0; congruence|discriminate]|].
      cbn [map]. change (remove_at a so :: map (fun _ => remove_at a so) l) with (map (fun _ : nat => remove_at a so) (k :: l)).
      rewrite differ_const.
      assert (Hpos := proj1 HP). destruct (at_split so a HA) as (u & m & v & -> & Hu). subst a. rewrite remove_at_app.
      assert (HL : length p = m).
      { rewrite (sizes_length _ _ HS). destruct HP as [_ ->]. rewrite nth_middle, repeat_length. reflexivity. }
      assert (E : forall a', a' = Z.of_nat (length u) -> py_prefix (u ++ v) a' ++ length p :: py_suffix (u ++ v) a' = u ++ m :: v).
      { intros a' ->. unfold py_prefix, py_suffix, py_pos. destruct (Z.leb_spec 0 (Z.of_nat (length u))); [|lia]. rewrite Nat2Z.id.
        rewrite firstn_app, firstn_all, Nat.sub_diag, skipn_app, skipn_all, Nat.sub_diag. cbn. rewrite app_nil_r. congruence. }
      rewrite E; auto. apply position_value in Hpos. cbn [axis_value] in Hpos. rewrite app_length in *. cbn [length] in *.
      destruct (Z.ltb_spec z 0), (Z.leb_spec 0 z); lia.
  - cbn in S. subst pout. unfold get_shape_composite. rewrite explicits_some. cbn [piece_shape].
    destruct (seq 0 n) as [|k l] eqn:Es; [destruct n; [congruence|discriminate]|]. cbn [map].
    change (so :: map (fun _ => so) l) with (map (fun _ : nat => so) (k :: l)). rewrite differ_const. reflexivity.
Qed.

Theorem block_shape (ks : list bshape) pin pout axin axout pi po si so :
  ks <> [] -> side_ok pin pi axin si -> (axin <> None -> pin = Some (map Some pi) /\ length ks = length pi) ->
  side_ok pout po axout so -> (axout <> None -> length ks = length po) ->
  (forall k b, nth_error ks k = Some b -> b_reshapein b (piece_shape axin pi k si) = Ok (piece_shape axout po k so)) ->
  block_reshapein ks pin pout axin axout (Some si) = Ok (Some so).
Proof.
  intros N Si Hi So Ho HB. unfold block_reshapein.
  assert (Ep : pin = match axin with Some _ => Some (map Some pi) | None => None end).
  { destruct axin; [apply Hi; discriminate|exact Si]. }
  assert (En : get_shape_operands (Some si) pin (match pout with Some p => length p | None => length ks end) axin
    = Ok (map (fun k => Some (piece_shape axin pi k si)) (seq 0 (length ks)))).
  { assert (match pout with Some p => length p | None => length ks end = length ks) as ->.
    { destruct axout as [ax|]; [|cbn in So; subst; auto]. destruct So as (p & a' & -> & HS & _). rewrite (sizes_length _ _ HS). symmetry. apply Ho. discriminate. }
    rewrite Ep in Si |- *. apply operands_ok; auto. intros Na. apply Hi. auto. }
  rewrite En. cbn [rbind].
  assert (ER : forall d (l : list bshape), (forall k b, nth_error l k = Some b -> b_reshapein b (piece_shape axin pi (d + k) si) = Ok (piece_shape axout po (d + k) so)) ->
    rmap (fun ks => match snd ks with None => Ok (b_out (fst ks)) | Some s => t <- b_reshapein (fst ks) s ;; Ok (Some t) end)
      (combine l (map (fun k => Some (piece_shape axin pi k si)) (seq d (length l)))) = Ok (map (fun k => Some (piece_shape axout po k so)) (seq d (length l)))).
  { intros d l. revert d. induction l as [|b l IH]; intros d HH; auto. cbn [length seq map combine rmap fst snd].
    assert (E0 := HH 0 b eq_refl). rewrite Nat.add_0_r in E0. rewrite E0. cbn [rbind]. rewrite (IH (S d)).
    - reflexivity.
    - intros k b' Hb. specialize (HH (S k) b' Hb). rewrite Nat.add_succ_r in HH. exact HH. }
  rewrite (ER 0 ks) by (intros; apply HB; auto). cbn [rbind]. apply composite_ok; auto. destruct ks; [congruence|discriminate].
Qed.
