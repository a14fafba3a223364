From Verif Require Import Base SeqModel SeqSpec.
From Coq Require Import Permutation.

(** ** broadcast_shapes *)
Lemma columns_length n rows : length (columns n rows) = n.
Proof. revert rows; induction n; intros; simpl; congruence. Qed.

Lemma columns_nth n rows j : j < n -> nth j (columns n rows) [] = map (fun r => nth j r 1) rows.
Proof.
  revert rows j; induction n as [|n IH]; intros rows j Hj; [lia|].
  destruct j as [|j]; simpl.
  - apply map_ext; intros [|a r]; reflexivity.
  - rewrite IH by lia. rewrite map_map. apply map_ext; intros [|a r]; simpl; auto. destruct j; auto.
Qed.

Lemma rmap_ok {X Y} (f : X -> result Y) (d : Y) (d' : X) l r :
  rmap f l = Ok r <-> length r = length l /\ forall j, j < length l -> f (nth j l d') = Ok (nth j r d).
Proof.
  revert r; induction l as [|a l IH]; intros r; simpl.
  - split.
    + intros H; injection H as <-; split; [reflexivity|intros; lia].
    + intros [H _]; destruct r; [reflexivity|discriminate].
  - destruct (f a) as [b|e] eqn:E; simpl.
    + destruct (rmap f l) as [bs|e] eqn:E2; simpl.
      * split.
        -- intros H; injection H as <-. destruct (proj1 (IH bs) eq_refl) as [H1 H2].
           split; [simpl; lia|]. intros [|j] Hj; [exact E|apply H2; lia].
        -- intros [H1 H2]. destruct r as [|c r]; [discriminate|].
           specialize (H2 0 ltac:(lia)) as H0; simpl in H0. rewrite E in H0; injection H0 as <-.
           assert (H : Ok bs = Ok r). { apply IH; split; [simpl in H1; lia|]. intros j Hj; apply (H2 (S j)); lia. }
           injection H as <-; reflexivity.
      * split; [discriminate|]. intros [H1 H2]. destruct r as [|c r]; [discriminate|].
        assert (H : Raise e = Ok r). { apply IH; split; [simpl in H1; lia|]. intros j Hj; apply (H2 (S j)); lia. }
        discriminate.
    + split; [discriminate|]. intros [H1 H2]. specialize (H2 0 ltac:(lia)); simpl in H2; congruence.
Qed.

Lemma rmap_raise {X Y} (f : X -> result Y) l e :
  rmap f l = Raise e -> exists a, In a l /\ f a = Raise e.
Proof.
  induction l as [|a l IH]; simpl; [discriminate|].
  destruct (f a) as [b|e'] eqn:E; simpl.
  - destruct (rmap f l); simpl; [discriminate|]. intros H; injection H as ->.
    destruct (IH eq_refl) as (x & H1 & H2); exists x; auto.
  - intros H; injection H as ->. exists a; auto.
Qed.

Lemma broadcast_dim_ok dims d :
  broadcast_dim dims = Ok d <->
  ((forall x, In x dims -> x = 1) /\ d = 1) \/ (In d dims /\ d <> 1 /\ forall x, In x dims -> x = 1 \/ x = d).
Proof.
  unfold broadcast_dim.
  assert (HF : forall x, In x (filter (fun d => negb (d =? 1)) dims) <-> In x dims /\ x <> 1).
  { intros x. rewrite filter_In, negb_true_iff, Nat.eqb_neq. tauto. }
  destruct (filter (fun d0 => negb (d0 =? 1)) dims) as [|d0 l] eqn:E.
  - split.
    + intros H; injection H as <-. left; split; [|reflexivity]. intros x Hx.
      destruct (Nat.eq_dec x 1) as [?|n]; auto. destruct (proj2 (HF x) (conj Hx n)).
    + intros [[_ ->]|(H1 & H2 & _)]; [reflexivity|]. destruct (proj2 (HF d) (conj H1 H2)).
  - destruct (proj1 (HF d0) (or_introl eq_refl)) as [Hd0 Hd1].
    cbv zeta. destruct (existsb (fun d1 => negb (d1 =? d0)) (d0 :: l)) eqn:Ex.
    + apply existsb_exists in Ex as (x & Hx & Hn). apply negb_true_iff, Nat.eqb_neq in Hn.
      apply HF in Hx as [Hx Hx1].
      split; [discriminate|]. intros [[Ha _]|(H1 & H2 & H3)].
      * specialize (Ha d0 Hd0); contradiction.
      * destruct (H3 x Hx), (H3 d0 Hd0); congruence.
    + assert (Hall : forall x, In x dims -> x = 1 \/ x = d0).
      { intros x Hx. destruct (Nat.eq_dec x 1) as [?|n]; auto. right.
        destruct (Nat.eq_dec x d0) as [?|n']; auto. exfalso.
        assert (existsb (fun d1 => negb (d1 =? d0)) (d0 :: l) = true); [|congruence].
        apply existsb_exists; exists x; split; [apply HF; auto|]. apply negb_true_iff, Nat.eqb_neq; auto. }
      split.
      * intros H; injection H as <-. right; auto.
      * intros [[Ha _]|(H1 & H2 & H3)].
        -- specialize (Ha d0 Hd0); contradiction.
        -- destruct (Hall d H1); [contradiction|congruence].
Qed.

Lemma broadcast_dim_raise dims e :
  broadcast_dim dims = Raise e -> e = ValueError /\ exists x y, In x dims /\ In y dims /\ x <> 1 /\ y <> 1 /\ x <> y.
Proof.
  unfold broadcast_dim.
  assert (HF : forall x, In x (filter (fun d => negb (d =? 1)) dims) <-> In x dims /\ x <> 1).
  { intros x. rewrite filter_In, negb_true_iff, Nat.eqb_neq. tauto. }
  destruct (filter (fun d0 => negb (d0 =? 1)) dims) as [|d0 l] eqn:E; [discriminate|].
  cbv zeta. destruct (existsb (fun d1 => negb (d1 =? d0)) (d0 :: l)) eqn:Ex; [|discriminate].
  intros H; injection H as <-; split; [reflexivity|].
  apply existsb_exists in Ex as (x & Hx & Hn). apply negb_true_iff, Nat.eqb_neq in Hn.
  apply HF in Hx as [Hx Hx1]. destruct (proj1 (HF d0) (or_introl eq_refl)).
  exists x, d0; auto 6.
Qed.

Lemma max_len_ge shapes s : In s shapes -> length s <= max_len shapes.
Proof.
  unfold max_len; induction shapes as [|a l IH]; simpl; [tauto|]. intros [->|H]; [lia|specialize (IH H); lia].
Qed.
Lemma max_len_in shapes : shapes <> [] -> exists s, In s shapes /\ length s = max_len shapes.
Proof.
  unfold max_len; induction shapes as [|a l IH]; [congruence|]; intros _; simpl.
  destruct l as [|b l].
  - exists a; simpl; split; auto; lia.
  - destruct IH as (s & H1 & H2); [discriminate|].
    destruct (Nat.le_gt_cases (length a) (length s)).
    + exists s; split; [auto|lia].
    + exists a; split; [auto|lia].
Qed.

Lemma pad_length n s : length s <= n -> length (pad n s) = n.
Proof. intros; unfold pad; rewrite app_length, repeat_length; lia. Qed.

Lemma nth_repeat_1 n k : nth k (repeat 1 n) 1 = 1.
Proof. revert k; induction n; intros [|k]; simpl; auto. Qed.

Lemma dim_pad n s k : dim (pad n s) k = dim s k.
Proof.
  unfold dim, pad. rewrite rev_app_distr.
  destruct (Nat.lt_ge_cases k (length (rev s))).
  - rewrite app_nth1; auto.
  - rewrite app_nth2, (nth_overflow (rev s)) by lia.
    assert (E : rev (repeat 1 (n - length s)) = repeat 1 (n - length s)).
    { generalize (n - length s) as m; induction m; simpl; auto. rewrite IHm. clear IHm.
      induction m; simpl; congruence. }
    rewrite E. apply nth_repeat_1.
Qed.

Lemma nth_dim s j : j < length s -> nth j s 1 = dim s (length s - 1 - j).
Proof.
  intros H; unfold dim. rewrite rev_nth by lia. f_equal; lia.
Qed.
Lemma dim_nth s k : k < length s -> dim s k = nth (length s - 1 - k) s 1.
Proof. intros H; unfold dim; rewrite rev_nth by lia. f_equal; lia. Qed.
Lemma dim_over s k : length s <= k -> dim s k = 1.
Proof. intros; unfold dim; apply nth_overflow; rewrite rev_length; lia. Qed.

Lemma broadcast_ok_dims shapes r : shapes <> [] ->
  (broadcast_shapes shapes = Ok r <->
   length r = max_len shapes /\ forall k, broadcast_dim (map (fun s => dim s k) shapes) = Ok (dim r k)).
Proof.
  intros Hne. unfold broadcast_shapes. destruct shapes as [|s0 l] eqn:Es; [congruence|]. rewrite <- Es in *.
  clear Es s0 l. set (n := max_len shapes).
  rewrite (rmap_ok _ 1 []), columns_length.
  assert (Hcol : forall j, j < n -> nth j (columns n (map (pad n) shapes)) [] = map (fun s => dim s (n - 1 - j)) shapes).
  { intros j Hj. rewrite columns_nth by auto. rewrite map_map. apply map_ext_in; intros s Hs.
    pose proof (max_len_ge _ _ Hs). rewrite nth_dim by (rewrite pad_length; auto).
    rewrite pad_length, dim_pad by auto. reflexivity. }
  split; intros [H1 H2]; (split; [assumption|]).
  - intros k. destruct (Nat.lt_ge_cases k n) as [Hk|Hk].
    + specialize (H2 (n - 1 - k) ltac:(lia)). rewrite Hcol in H2 by lia.
      replace (n - 1 - (n - 1 - k)) with k in H2 by lia. rewrite H2, dim_nth by lia. rewrite H1. reflexivity.
    + rewrite dim_over by lia. apply broadcast_dim_ok; left; split; [|reflexivity].
      intros x Hx; apply in_map_iff in Hx as (s & <- & Hs). apply dim_over.
      pose proof (max_len_ge _ _ Hs). fold n in H. lia.
  - intros j Hj. rewrite Hcol, H2 by auto. rewrite (nth_dim r j) by lia. rewrite H1; reflexivity.
Qed.

Theorem broadcast_spec shapes r : shapes <> [] ->
  (broadcast_shapes shapes = Ok r <-> compatible shapes /\ is_broadcast shapes r).
Proof.
  intros Hne. rewrite broadcast_ok_dims by auto. split.
  - intros [Hl H].
    assert (Hd : forall k, ((forall x, In x (map (fun s => dim s k) shapes) -> x = 1) /\ dim r k = 1) \/
       (In (dim r k) (map (fun s => dim s k) shapes) /\ dim r k <> 1 /\
        forall x, In x (map (fun s => dim s k) shapes) -> x = 1 \/ x = dim r k))
      by (intros k; apply broadcast_dim_ok, H).
    assert (Hm : forall s k, In s shapes -> In (dim s k) (map (fun s => dim s k) shapes))
      by (intros s k Hs; apply in_map_iff; eauto).
    split.
    + intros s t k Hs Ht. destruct (Hd k) as [[Ha _]|(H1 & H2 & H3)].
      * left; apply Ha, Hm, Hs.
      * destruct (H3 _ (Hm s k Hs)), (H3 _ (Hm t k Ht)); intuition congruence.
    + split; [|split].
      * intros s Hs. rewrite Hl. apply max_len_ge, Hs.
      * destruct (max_len_in shapes Hne) as (s & Hs & E). exists s; split; congruence.
      * intros k. destruct (Hd k) as [[Ha E]|(H1 & H2 & H3)].
        -- left; split; [|exact E]. intros s Hs; apply Ha, Hm, Hs.
        -- right. apply in_map_iff in H1 as (s & E & Hs). exists s; split; [|split]; congruence.
  - intros [Hc (Hl1 & (s0 & Hs0 & E0) & Hk)]. split.
    + destruct (max_len_in shapes Hne) as (s & Hs & E). pose proof (Hl1 _ Hs). pose proof (max_len_ge _ _ Hs0). lia.
    + intros k. apply broadcast_dim_ok. destruct (Hk k) as [[Ha E]|(s & Hs & Hn & E)].
      * left; split; [|exact E]. intros x Hx; apply in_map_iff in Hx as (s & <- & Hs); auto.
      * right. rewrite E. split; [|split]; auto.
        -- apply in_map_iff; eauto.
        -- intros x Hx; apply in_map_iff in Hx as (t & <- & Ht). destruct (Hc s t k Hs Ht) as [?|[?|?]]; auto; congruence.
Qed.

Lemma dim_ext r r' : length r = length r' -> (forall k, dim r k = dim r' k) -> r = r'.
Proof.
  intros Hl H. apply (nth_ext _ _ 1 1 Hl). intros j Hj. rewrite (nth_dim r), (nth_dim r') by lia.
  rewrite Hl; apply H.
Qed.

Theorem broadcast_raise shapes e : broadcast_shapes shapes = Raise e -> e = ValueError /\ (shapes = [] \/ ~ compatible shapes).
Proof.
  intros H. destruct shapes as [|s0 l] eqn:Es.
  - injection H as <-; auto.
  - rewrite <- Es in *. assert (Hne : shapes <> []) by (rewrite Es; discriminate).
    assert (Hr : rmap broadcast_dim (columns (max_len shapes) (map (pad (max_len shapes)) shapes)) = Raise e).
    { rewrite <- H. unfold broadcast_shapes. rewrite Es. reflexivity. }
    apply rmap_raise in Hr as (dims & Hin & Hd). apply (In_nth _ _ []) in Hin as (j & Hj & E).
    rewrite columns_length in Hj. rewrite columns_nth in E by auto. rewrite map_map in E.
    apply broadcast_dim_raise in Hd as (-> & x & y & Hx & Hy & H1 & H2 & H3). split; [reflexivity|right].
    rewrite <- E in Hx, Hy. apply in_map_iff in Hx as (s & Ex & Hs), Hy as (t & Ey & Ht).
    intros Hc.
    assert (Hs' := max_len_ge _ _ Hs). assert (Ht' := max_len_ge _ _ Ht).
    rewrite nth_dim in Ex, Ey by (rewrite pad_length; auto). rewrite pad_length, dim_pad in Ex, Ey by auto.
    destruct (Hc s t (max_len shapes - 1 - j) Hs Ht) as [?|[?|?]]; congruence.
Qed.

Theorem broadcast_raises_iff shapes : shapes <> [] ->
  (broadcast_shapes shapes = Raise ValueError <-> ~ compatible shapes).
Proof.
  intros Hne. destruct (broadcast_shapes shapes) as [r|e] eqn:E.
  - apply broadcast_spec in E as [Hc _]; auto. split; [discriminate|tauto].
  - apply broadcast_raise in E as [-> [?|?]]; [contradiction|]. tauto.
Qed.

(** The result depends on the set of the dimensions only. *)
Lemma broadcast_equiv l l' : l <> [] -> l' <> [] ->
  (compatible l <-> compatible l') -> (forall r, is_broadcast l r <-> is_broadcast l' r) ->
  broadcast_shapes l = broadcast_shapes l'.
Proof.
  intros H1 H2 Hc Hb. destruct (broadcast_shapes l) as [r|e] eqn:E.
  - symmetry. apply broadcast_spec in E as [? ?]; auto. apply broadcast_spec; auto. split; [tauto|]. apply Hb; auto.
  - assert (E' := E). apply broadcast_raise in E as [-> [?|Hn]]; [contradiction|]. symmetry.
    apply broadcast_raises_iff; auto; tauto.
Qed.

Theorem broadcast_permutation l l' : Permutation l l' -> broadcast_shapes l = broadcast_shapes l'.
Proof.
  intros HP. destruct l as [|s l]; [apply Permutation_nil in HP as ->; reflexivity|].
  destruct l' as [|s' l']; [apply Permutation_sym, Permutation_nil in HP; discriminate|].
  assert (Hin : forall x, In x (s :: l) <-> In x (s' :: l')).
  { intros x; split; apply Permutation_in; auto using Permutation_sym. }
  apply broadcast_equiv; [discriminate|discriminate| |].
  - unfold compatible; split; intros H a b k Ha Hb; apply H; apply Hin; auto.
  - intros r; unfold is_broadcast; split; intros (H1 & (x & Hx & Ex) & H3);
      (split; [intros; apply H1, Hin; auto|split; [exists x; split; [apply Hin|]; auto|]]); intros k;
      (destruct (H3 k) as [[Ha E]|(y & Hy & Hn & E)]; [left; split; auto; intros; apply Ha, Hin; auto|right; exists y]);
      (split; [apply Hin; auto|auto]).
Qed.

Lemma is_broadcast_dim l r s k : compatible l -> is_broadcast l r -> In s l -> dim s k <> 1 -> dim r k = dim s k.
Proof.
  intros Hc (_ & _ & H) Hs Hn. destruct (H k) as [[Ha _]|(t & Ht & Hn' & E)].
  - specialize (Ha s Hs); contradiction.
  - rewrite E. destruct (Hc t s k Ht Hs) as [?|[?|?]]; congruence.
Qed.

Theorem broadcast_grouping l1 l2 r1 r2 :
  broadcast_shapes l1 = Ok r1 -> broadcast_shapes l2 = Ok r2 ->
  broadcast_shapes (l1 ++ l2) = broadcast_shapes [r1; r2].
Proof.
  intros E1 E2.
  assert (N1 : l1 <> []) by (intros ->; discriminate). assert (N2 : l2 <> []) by (intros ->; discriminate).
  apply broadcast_spec in E1 as [C1 B1]; auto. apply broadcast_spec in E2 as [C2 B2]; auto.
  assert (D1 : forall s k, In s l1 -> dim s k <> 1 -> dim r1 k = dim s k) by (intros; apply (is_broadcast_dim l1); auto).
  assert (D2 : forall s k, In s l2 -> dim s k <> 1 -> dim r2 k = dim s k) by (intros; apply (is_broadcast_dim l2); auto).
  destruct B1 as (L1 & (m1 & M1 & M1') & K1), B2 as (L2 & (m2 & M2 & M2') & K2).
  apply broadcast_equiv.
  - destruct l1; [congruence|discriminate].
  - discriminate.
  - split; intros H.
    + assert (HH : forall k, dim r1 k = 1 \/ dim r2 k = 1 \/ dim r1 k = dim r2 k).
      { intros k. destruct (K1 k) as [[_ ?]|(s & Hs & Hn & E)]; auto.
        destruct (K2 k) as [[_ ?]|(t & Ht & Hn' & E')]; auto.
        specialize (H s t k ltac:(apply in_or_app; auto) ltac:(apply in_or_app; auto)). rewrite E, E'. auto. }
      intros s t k [<-|[<-|[]]] [<-|[<-|[]]]; auto. destruct (HH k) as [?|[?|?]]; auto.
    + intros s t k Hs Ht. apply in_app_or in Hs, Ht.
      assert (HH := H r1 r2 k (or_introl eq_refl) (or_intror (or_introl eq_refl))).
      destruct (Nat.eq_dec (dim s k) 1) as [?|Hn]; auto. destruct (Nat.eq_dec (dim t k) 1) as [?|Hn']; auto.
      right; right. destruct Hs as [Hs|Hs], Ht as [Ht|Ht];
        repeat match goal with
        | D : (forall s k, In s ?l -> _), H : In ?x ?l, N : dim ?x k <> 1 |- _ =>
            lazymatch goal with _ : dim _ k = dim x k |- _ => fail | _ => pose proof (D x k H N) end
        end; destruct HH as [?|[?|?]]; congruence.
  - intros r; split.
    + intros (L & (m & Hm & Em) & K). split; [|split].
      * intros s [<-|[<-|[]]].
        -- rewrite <- M1'; apply L, in_or_app; auto.
        -- rewrite <- M2'; apply L, in_or_app; auto.
      * apply in_app_or in Hm as [Hm|Hm].
        -- exists r1; split; [left; auto|]. assert (length m1 <= length r) by (apply L, in_or_app; auto).
           specialize (L1 _ Hm); lia.
        -- exists r2; split; [right; left; auto|]. assert (length m2 <= length r) by (apply L, in_or_app; auto).
           specialize (L2 _ Hm); lia.
      * intros k. destruct (K k) as [[Ha E]|(s & Hs & Hn & E)].
        -- left; split; [|exact E]. intros s [<-|[<-|[]]].
           ++ destruct (K1 k) as [[_ ?]|(t & Ht & Hn' & _)]; auto. rewrite Ha in Hn' by (apply in_or_app; auto); congruence.
           ++ destruct (K2 k) as [[_ ?]|(t & Ht & Hn' & _)]; auto. rewrite Ha in Hn' by (apply in_or_app; auto); congruence.
        -- right. apply in_app_or in Hs as [Hs|Hs].
           ++ exists r1; rewrite (D1 s k Hs Hn); simpl; auto.
           ++ exists r2; rewrite (D2 s k Hs Hn); simpl; auto.
    + intros (L & (m & Hm & Em) & K). split; [|split].
      * intros s Hs. assert (length r1 <= length r) by (apply L; simpl; auto).
        assert (length r2 <= length r) by (apply L; simpl; auto).
        apply in_app_or in Hs as [Hs|Hs]; [specialize (L1 _ Hs)|specialize (L2 _ Hs)]; lia.
      * destruct Hm as [<-|[<-|[]]]; [exists m1|exists m2]; (split; [apply in_or_app; auto|congruence]).
      * intros k. destruct (K k) as [[Ha E]|(s & Hs & Hn & E)].
        -- left; split; [|exact E]. intros s Hs.
           destruct (Nat.eq_dec (dim s k) 1) as [?|Hn]; auto. exfalso. apply in_app_or in Hs as [Hs|Hs].
           ++ pose proof (Ha r1 (or_introl eq_refl)) as E1. rewrite (D1 s k Hs Hn) in E1; contradiction.
           ++ pose proof (Ha r2 (or_intror (or_introl eq_refl))) as E1. rewrite (D2 s k Hs Hn) in E1; contradiction.
        -- right. destruct Hs as [<-|[<-|[]]].
           ++ destruct (K1 k) as [[_ ?]|(t & Ht & Hn' & E')]; [contradiction|].
              exists t; split; [apply in_or_app; auto|split; congruence].
           ++ destruct (K2 k) as [[_ ?]|(t & Ht & Hn' & E')]; [contradiction|].
              exists t; split; [apply in_or_app; auto|split; congruence].
Qed.

Theorem broadcast_grouping_raise l1 l2 e : l1 <> [] ->
  broadcast_shapes l1 = Raise e ->
  broadcast_shapes (l1 ++ l2) = Raise ValueError /\ broadcast_shapes (l2 ++ l1) = Raise ValueError.
Proof.
  intros N1 E. apply broadcast_raise in E as [-> [?|Hn]]; [contradiction|].
  split; apply broadcast_raises_iff; try (destruct l1, l2; simpl; congruence);
    intros H; apply Hn; intros s t k Hs Ht; apply H; apply in_or_app; auto.
Qed.

(** ** reshape_broadcast *)
Lemma skipn_all_ge {X} n (l : list X) : length l <= n -> skipn n l = [].
Proof. apply skipn_all2. Qed.

Lemma last_slice_ge {X} k (l : list X) : k <= length l ->
  k <> 0 -> length (last_slice k l) = k.
Proof. intros H Hk. unfold last_slice. destruct k; [congruence|]. rewrite skipn_length. lia. Qed.

Lemma dot_zeros n idx l : n <= length idx -> dot idx (repeat 0%Z n ++ l) = dot (skipn n idx) l.
Proof.
  revert idx; induction n as [|n IH]; intros idx H; simpl; [reflexivity|].
  destruct idx as [|i idx]; simpl in *; [lia|]. rewrite IH by lia. lia.
Qed.

Lemma dot_bcast xs idx st : length xs = length st -> length idx = length xs ->
  dot idx (map (fun p => if fst p =? 1 then 0%Z else snd p) (combine xs st)) =
  dot (map (fun p => if fst p =? 1 then 0 else snd p) (combine xs idx)) st.
Proof.
  revert idx st; induction xs as [|x xs IH]; intros [|i idx] [|s st] H1 H2; simpl in *; try discriminate; auto.
  rewrite IH by lia. destruct (x =? 1); simpl; lia.
Qed.

Lemma valid_index_length shape idx : valid_index shape idx -> length idx = length shape.
Proof. unfold valid_index; induction 1; simpl; congruence. Qed.

Lemma reshape_ok x shape y : length (st_shape x) = length (st_strides x) ->
  reshape_broadcast x shape = Ok y ->
  st_shape y = shape /\ length (st_strides y) = length shape /\
  forall idx, valid_index shape idx ->
    valid_index (st_shape x) (broadcast_index (st_shape x) idx) /\
    address y idx = address x (broadcast_index (st_shape x) idx).
Proof.
  unfold reshape_broadcast. intros Hst.
  destruct ((length shape <? length (st_shape x)) || _) eqn:C; [discriminate|]. intros H; injection H as <-; simpl.
  apply orb_false_iff in C as [Cl Ce]. apply Nat.ltb_ge in Cl.
  split; [reflexivity|]. split.
  { rewrite app_length, repeat_length, map_length, combine_length. lia. }
  intros idx Hv.
  assert (Hl : length idx = length shape) by (apply valid_index_length; auto).
  unfold broadcast_index. split.
  - destruct (st_shape x) as [|x0 xs] eqn:Ex; [simpl; constructor|]. rewrite <- Ex in *.
    assert (Hn : length (st_shape x) <> 0) by (rewrite Ex; simpl; lia).
    assert (Els : last_slice (length (st_shape x)) shape = skipn (length shape - length (st_shape x)) shape).
    { unfold last_slice. destruct (length (st_shape x)); [congruence|reflexivity]. }
    rewrite Els in Ce. rewrite Hl. clear Els Hn.
    assert (Hv' : Forall2 (fun i n => i < n) (skipn (length shape - length (st_shape x)) idx)
                    (skipn (length shape - length (st_shape x)) shape)).
    { assert (G : forall n i s, Forall2 (fun i n => i < n) i s -> Forall2 (fun i n => i < n) (skipn n i) (skipn n s)).
      { clear. induction n; intros i s H; simpl; auto. destruct H; auto. }
      apply G; auto. }
    assert (Hl' : length (skipn (length shape - length (st_shape x)) shape) = length (st_shape x)) by (rewrite skipn_length; lia).
    revert Ce Hv' Hl'. generalize (skipn (length shape - length (st_shape x)) shape) as sh.
    generalize (skipn (length shape - length (st_shape x)) idx) as ix. generalize (st_shape x) as xs'. clear.
    unfold valid_index. intros xs' ix sh; revert ix sh; induction xs' as [|a xs' IH]; intros ix sh Ce Hv Hl; simpl.
    + constructor.
    + destruct Hv as [|i s ix sh Hi Hv]; [discriminate|]. simpl in *. apply orb_false_iff in Ce as [Ca Ce].
      constructor; [|apply (IH _ sh); auto].
      apply andb_false_iff in Ca. rewrite !negb_false_iff, !Nat.eqb_eq in Ca. simpl.
      destruct (a =? 1) eqn:Ea; [apply Nat.eqb_eq in Ea; subst; auto|]. apply Nat.eqb_neq in Ea. destruct Ca; [congruence|]. subst; auto.
  - unfold address; simpl. rewrite dot_zeros by lia. f_equal. rewrite Hl. apply dot_bcast; [auto|]. rewrite skipn_length; lia.
Qed.

Lemma dim_skipn s n k : n <= length s -> dim (skipn n s) k = if k <? length s - n then dim s k else 1.
Proof.
  intros Hn. destruct (k <? length s - n) eqn:E.
  - apply Nat.ltb_lt in E. rewrite !dim_nth by (rewrite ?skipn_length; lia). rewrite skipn_length.
    assert (G : forall n (s : list nat) j, nth j (skipn n s) 1 = nth (n + j) s 1).
    { clear. induction n; intros [|a s] j; simpl; auto. destruct j; auto. }
    rewrite G. f_equal; lia.
  - apply Nat.ltb_ge in E. apply dim_over. rewrite skipn_length; lia.
Qed.

Lemma combine_existsb xs sh : length xs = length sh ->
  existsb (fun p => negb (fst p =? 1) && negb (fst p =? snd p)) (combine xs sh) = false <->
  forall j, j < length xs -> nth j xs 1 = 1 \/ nth j xs 1 = nth j sh 1.
Proof.
  revert sh; induction xs as [|a xs IH]; intros [|b sh] H; simpl in *; try discriminate.
  - split; [intros; lia|reflexivity].
  - rewrite orb_false_iff, IH by lia. rewrite andb_false_iff, !negb_false_iff, !Nat.eqb_eq. split.
    + intros [H0 H1] [|j] Hj; [exact H0|apply H1; lia].
    + intros H0; split; [apply (H0 0); lia|intros j Hj; apply (H0 (S j)); lia].
Qed.

Lemma reshape_iff x shape :
  is_ok (reshape_broadcast x shape) = true <-> broadcast_shapes [st_shape x; shape] = Ok shape.
Proof.
  set (xs := st_shape x).
  assert (Hiff : is_ok (reshape_broadcast x shape) = true <->
                 length xs <= length shape /\ forall k, dim xs k = 1 \/ dim xs k = dim shape k).
  { unfold reshape_broadcast. fold xs.
    destruct ((length shape <? length xs) || _) eqn:C; simpl.
    - split; [discriminate|]. intros [Hl Hk]. exfalso.
      apply orb_true_iff in C as [C|C]; [apply Nat.ltb_lt in C; lia|].
      destruct xs as [|x0 xs'] eqn:Ex; [discriminate|]. rewrite <- Ex in *.
      assert (Els : last_slice (length xs) shape = skipn (length shape - length xs) shape) by (rewrite Ex; reflexivity).
      rewrite Els in C.
      assert (E : existsb (fun p => negb (fst p =? 1) && negb (fst p =? snd p)) (combine xs (skipn (length shape - length xs) shape)) = false); [|congruence].
      assert (Hsl : length (skipn (length shape - length xs) shape) = length xs) by (rewrite skipn_length; lia).
      apply combine_existsb; [congruence|]. intros j Hj. rewrite !nth_dim by lia. rewrite Hsl, dim_skipn by lia.
      replace (length xs - 1 - j <? length shape - (length shape - length xs)) with true by (symmetry; apply Nat.ltb_lt; lia).
      apply Hk.
    - apply orb_false_iff in C as [Cl Ce]. apply Nat.ltb_ge in Cl. split; [intros _|reflexivity]. split; [exact Cl|].
      intros k. destruct (Nat.lt_ge_cases k (length xs)) as [Hk|Hk]; [|left; apply dim_over; lia].
      destruct xs as [|x0 xs'] eqn:Ex; [simpl in Hk; lia|]. rewrite <- Ex in *.
      assert (Els : last_slice (length xs) shape = skipn (length shape - length xs) shape) by (rewrite Ex; reflexivity).
      rewrite Els in Ce.
      assert (Hsl : length (skipn (length shape - length xs) shape) = length xs) by (rewrite skipn_length; lia).
      rewrite combine_existsb in Ce by congruence. specialize (Ce (length xs - 1 - k) ltac:(lia)).
      rewrite !nth_dim in Ce by lia. rewrite Hsl, dim_skipn in Ce by lia.
      replace (length xs - 1 - (length xs - 1 - k)) with k in Ce by lia.
      replace (k <? length shape - (length shape - length xs)) with true in Ce by (symmetry; apply Nat.ltb_lt; lia).
      exact Ce. }
  rewrite Hiff, broadcast_spec by discriminate. split.
  - intros [Hl Hk]. split.
    + intros s t k [<-|[<-|[]]] [<-|[<-|[]]]; auto; destruct (Hk k); auto.
    + split; [|split].
      * intros s [<-|[<-|[]]]; auto.
      * exists shape; simpl; auto.
      * intros k. destruct (Nat.eq_dec (dim shape k) 1) as [E|E].
        -- left; split; [|exact E]. intros s [<-|[<-|[]]]; auto. destruct (Hk k); congruence.
        -- right; exists shape; simpl; auto.
  - intros [Hc HB]. split; [apply HB; simpl; auto|].
    intros k. destruct (Nat.eq_dec (dim xs k) 1) as [E|E]; auto. right. symmetry.
    eapply is_broadcast_dim; eauto. simpl; auto.
Qed.

(** ** Helpers *)
Section Helpers.
Variable A : Type.
Variable eqb : A -> A -> bool.
Hypothesis eqb_spec : forall a b, eqb a b = true <-> a = b.

Lemma eqb_neq a b : eqb a b = false <-> a <> b.
Proof. destruct (eqb a b) eqn:E; split; intros H; try congruence; [apply eqb_spec in E; congruence|intros ->]. rewrite (proj2 (eqb_spec b b) eq_refl) in E; discriminate. Qed.

Lemma first_spec l f :
  match first A l f with
  | Ok a => exists i, is_first A l f i a
  | Raise e => e = ValueError /\ no_match A l f
  end.
Proof.
  induction l as [|a l IH]; simpl; [split; [reflexivity|intros x []]|].
  destruct (f a) eqn:E.
  - exists 0; split; [reflexivity|split; [auto|intros; lia]].
  - destruct (first A l f) as [b|e].
    + destruct IH as (i & H1 & H2 & H3). exists (S i); split; [auto|split; [auto|]].
      intros [|j] c Hj Hc; simpl in Hc; [injection Hc as <-; auto|apply (H3 j); auto; lia].
    + destruct IH as [-> IH]; split; [reflexivity|intros x [<-|H]; auto].
Qed.

Lemma ifirst_from_spec i l f :
  match ifirst_from A i l f with
  | Ok n => i <= n /\ exists a, is_first A l f (n - i) a
  | Raise e => e = ValueError /\ no_match A l f
  end.
Proof.
  revert i; induction l as [|a l IH]; intros i; simpl; [split; [reflexivity|intros x []]|].
  destruct (f a) eqn:E.
  - split; [lia|]. exists a. rewrite Nat.sub_diag. split; [reflexivity|split; [auto|intros; lia]].
  - specialize (IH (S i)). destruct (ifirst_from A (S i) l f) as [n|e].
    + destruct IH as (Hn & b & H1 & H2 & H3). split; [lia|]. exists b.
      replace (n - i) with (S (n - S i)) by lia. split; [auto|split; [auto|]].
      intros [|j] c Hj Hc; simpl in Hc; [injection Hc as <-; auto|apply (H3 j); auto; lia].
    + destruct IH as [-> IH]; split; [reflexivity|intros x [<-|H]; auto].
Qed.

Lemma ifirst_spec l f :
  match ifirst A l f with
  | Ok n => exists a, is_first A l f n a
  | Raise e => e = ValueError /\ no_match A l f
  end.
Proof.
  pose proof (ifirst_from_spec 0 l f) as H. unfold ifirst. destruct (ifirst_from A 0 l f) as [n|e]; [|exact H].
  destruct H as (_ & a & H); exists a. rewrite Nat.sub_0_r in H; exact H.
Qed.

Lemma nth_error_rev (l : list A) i : i < length l -> nth_error (rev l) i = nth_error l (length l - 1 - i).
Proof.
  intros H. destruct l as [|d l']; [simpl in H; lia|]. set (l := d :: l') in *.
  rewrite (nth_error_nth' (rev l) d), (nth_error_nth' l d) by (rewrite ?rev_length; lia).
  f_equal. rewrite rev_nth by lia. f_equal; lia.
Qed.

Lemma is_first_rev l f i a : is_first A (rev l) f i a -> i < length l /\ is_last A l f (length l - i - 1) a.
Proof.
  intros (H1 & H2 & H3).
  assert (Hi : i < length l).
  { rewrite <- rev_length. apply nth_error_Some. congruence. }
  split; [auto|]. split; [|split; [auto|]].
  - rewrite <- H1, nth_error_rev by auto. f_equal; lia.
  - intros j b Hj Hb. assert (Hjl : j < length l) by (apply nth_error_Some; congruence).
    apply (H3 (length l - 1 - j)); [lia|]. rewrite nth_error_rev by lia. rewrite <- Hb. f_equal; lia.
Qed.
Lemma no_match_rev l f : no_match A (rev l) f -> no_match A l f.
Proof. intros H a Ha; apply H. rewrite <- in_rev; auto. Qed.

Lemma last_spec l f :
  match last_ A l f with
  | Ok a => exists i, is_last A l f i a
  | Raise e => e = ValueError /\ no_match A l f
  end.
Proof.
  unfold last_. pose proof (first_spec (rev l) f) as H. destruct (first A (rev l) f).
  - destruct H as (i & H). apply is_first_rev in H as [_ H]; eauto.
  - destruct H; split; auto using no_match_rev.
Qed.

Lemma ilast_spec l f :
  match ilast A l f with
  | Ok n => exists a, is_last A l f n a
  | Raise e => e = ValueError /\ no_match A l f
  end.
Proof.
  unfold ilast. pose proof (ifirst_spec (rev l) f) as H. destruct (ifirst A (rev l) f); simpl.
  - destruct H as (i & H). apply is_first_rev in H as [_ H]; eauto.
  - destruct H; split; auto using no_match_rev.
Qed.

Lemma ilast_value_eq l v : ilast_value A eqb l v = ilast A l (fun a => eqb a v).
Proof. reflexivity. Qed.
Lemma ilast_is_not_eq l v : ilast_is_not A eqb l v = ilast A l (fun a => negb (eqb a v)).
Proof. reflexivity. Qed.

Lemma first_is_not_spec l v :
  (exists i, is_first A l (fun a => negb (eqb a v)) i (first_is_not A eqb l v)) \/
  (first_is_not A eqb l v = v /\ forall a, In a l -> a = v).
Proof.
  induction l as [|a l IH]; simpl; [right; split; [reflexivity|tauto]|].
  destruct (eqb a v) eqn:E; simpl.
  - apply eqb_spec in E as ->. destruct IH as [(i & H1 & H2 & H3)|[H1 H2]].
    + left; exists (S i); split; [auto|split; [auto|]].
      intros [|j] c Hj Hc; simpl in Hc; [injection Hc as <-|apply (H3 j); auto; lia].
      rewrite (proj2 (eqb_spec v v) eq_refl); reflexivity.
    + right; split; [auto|]. intros b [<-|Hb]; auto.
  - left; exists 0; split; [reflexivity|split; [rewrite E; reflexivity|intros; lia]].
Qed.

Lemma last_is_not_spec l v :
  (exists i, is_last A l (fun a => negb (eqb a v)) i (last_is_not A eqb l v)) \/
  (last_is_not A eqb l v = v /\ forall a, In a l -> a = v).
Proof.
  unfold last_is_not. destruct (first_is_not_spec (rev l) v) as [(i & H)|[H1 H2]].
  - apply is_first_rev in H as [_ H]; eauto.
  - right; split; auto. intros a Ha; apply H2. rewrite <- in_rev; auto.
Qed.

Lemma merge_none_spec a b :
  match merge_none A eqb (Some a) (Some b) with
  | Ok None => False
  | Ok (Some r) => length a = length b /\ length r = length a /\
      forall i, i < length a ->
        match nth i a None, nth i b None with
        | Some x, Some y => x = y /\ nth i r None = Some x
        | Some x, None => nth i r None = Some x
        | None, q => nth i r None = q
        end
  | Raise e => e = ValueError /\
      (length a <> length b \/ exists i x y, nth i a None = Some x /\ nth i b None = Some y /\ x <> y)
  end.
Proof.
  unfold merge_none. destruct (length a =? length b) eqn:El; simpl.
  2:{ apply Nat.eqb_neq in El; auto. }
  apply Nat.eqb_eq in El.
  assert (G : forall a b : list (option A), length a = length b ->
    if existsb (fun pq => differ A eqb (fst pq) (snd pq))
         (filter (fun pq => negb (isnone A (fst pq) || isnone A (snd pq))) (combine a b))
    then exists i x y, nth i a None = Some x /\ nth i b None = Some y /\ x <> y
    else forall i, i < length a ->
        match nth i a None, nth i b None with
        | Some x, Some y => x = y /\ nth i (map (fun pq => if isnone A (fst pq) then snd pq else fst pq) (combine a b)) None = Some x
        | Some x, None => nth i (map (fun pq => if isnone A (fst pq) then snd pq else fst pq) (combine a b)) None = Some x
        | None, q => nth i (map (fun pq => if isnone A (fst pq) then snd pq else fst pq) (combine a b)) None = q
        end).
  { clear -eqb_spec. induction a as [|p a IH]; intros [|q b] H; simpl in *; try discriminate; [intros; lia|].
    specialize (IH b ltac:(lia)).
    destruct p as [x|], q as [y|]; simpl;
      [destruct (eqb x y) eqn:E; simpl; [apply eqb_spec in E; subst y|apply eqb_neq in E]| | |].
    - destruct (existsb _ _).
      + destruct IH as (i & IH); exists (S i); exact IH.
      + intros [|i] Hi; [split; reflexivity|apply IH; lia].
    - exists 0, x, y; auto.
    - destruct (existsb _ _).
      + destruct IH as (i & IH); exists (S i); exact IH.
      + intros [|i] Hi; [reflexivity|apply IH; lia].
    - destruct (existsb _ _).
      + destruct IH as (i & IH); exists (S i); exact IH.
      + intros [|i] Hi; [reflexivity|apply IH; lia].
    - destruct (existsb _ _).
      + destruct IH as (i & IH); exists (S i); exact IH.
      + intros [|i] Hi; [reflexivity|apply IH; lia]. }
  specialize (G a b El). destruct (existsb _ _).
  - split; [reflexivity|right; exact G].
  - split; [auto|split; [rewrite map_length, combine_length; lia|exact G]].
Qed.

Lemma renumerate_spec (l : list A) :
  length (renumerate A l) = length l /\
  forall j, j < length l -> nth_error (renumerate A l) j =
    match nth_error l (length l - 1 - j) with Some a => Some (length l - 1 - j, a) | None => None end.
Proof.
  unfold renumerate. split.
  - rewrite combine_length, !rev_length, seq_length. lia.
  - intros j Hj. destruct l as [|d l']; [simpl in Hj; lia|]. set (l := d :: l') in *.
    rewrite (nth_error_nth' _ (0, d)) by (rewrite combine_length, !rev_length, seq_length; lia).
    rewrite combine_nth by (rewrite !rev_length, seq_length; reflexivity).
    rewrite !rev_nth by (rewrite ?seq_length; lia). rewrite seq_length, seq_nth by lia.
    rewrite (nth_error_nth' l d) by lia.
    replace (length l - S j) with (length l - 1 - j) by lia. reflexivity.
Qed.

Lemma product_app one mul (Hassoc : forall a b c : A, mul (mul a b) c = mul a (mul b c)) (H1 : forall a, mul one a = a)
  (H2 : forall a, mul a one = a)
  l l' : product_list A one mul (l ++ l') = mul (product_list A one mul l) (product_list A one mul l').
Proof.
  unfold product_list. rewrite fold_left_app. generalize (fold_left mul l one) as p. intros p.
  assert (G : forall l q p, fold_left mul l (mul p q) = mul p (fold_left mul l q)).
  { induction l0 as [|a l0 IH]; intros q r; simpl; auto. rewrite Hassoc. apply IH. }
  rewrite <- (H2 p) at 1. apply G.
Qed.

(** zip_broadcast *)
Lemma rmap_heads (rows : list (list A)) :
  match rmap (fun r => match r with [] => Raise StopIteration | x :: _ => Ok x end) rows with
  | Ok t => Forall2 (fun r x => nth_error r 0 = Some x) rows t
  | Raise _ => exists r, In r rows /\ r = []
  end.
Proof.
  induction rows as [|r rows IH]; simpl; [constructor|].
  destruct r as [|x r]; simpl; [eauto|].
  destruct (rmap _ rows); simpl.
  - constructor; auto.
  - destruct IH as (r' & H & E); eauto.
Qed.

Lemma nth_error_tl (r : list A) j : nth_error (tl r) j = nth_error r (S j).
Proof. destruct r; simpl; auto. destruct j; auto. Qed.

(** The number of rows produced is the length of the shortest. *)
Lemma zip_rows_spec fuel rows : (exists r, In r rows /\ length r <= fuel) ->
  (forall j, j < length (zip_rows A fuel rows) ->
     exists t, nth_error (zip_rows A fuel rows) j = Some t /\ Forall2 (fun r x => nth_error r j = Some x) rows t) /\
  (exists r, In r rows /\ length r = length (zip_rows A fuel rows)).
Proof.
  revert rows; induction fuel as [|fuel IH]; intros rows (r0 & Hr0 & Hl0).
  - simpl. split; [intros; lia|]. exists r0; split; auto. lia.
  - simpl. pose proof (rmap_heads rows) as HH. destruct (rmap _ rows) as [t|e].
    + destruct (IH (map (@tl A) rows)) as [I1 I2].
      { exists (tl r0); split; [apply in_map; auto|]. destruct r0; simpl in *; lia. }
      assert (Hne : forall r, In r rows -> r <> []).
      { intros r Hr ->. clear -HH Hr. induction HH; [destruct Hr|]. destruct Hr as [->|Hr]; auto. discriminate. }
      split.
      * intros [|j] Hj; simpl.
        -- exists t; auto.
        -- destruct (I1 j) as (t' & H1 & H2); [simpl in Hj; lia|]. exists t'; split; auto.
           clear -H2. revert t' H2; induction rows as [|r rows IH]; intros t' H2; inversion H2; subst; constructor; auto.
           rewrite nth_error_tl in *; auto.
      * destruct I2 as (r & Hr & E). apply in_map_iff in Hr as (r' & <- & Hr'). exists r'; split; auto.
        simpl. rewrite <- E. specialize (Hne _ Hr'). destruct r'; simpl; congruence.
    + destruct HH as (r & Hr & ->). split; [simpl; intros; lia|]. exists []; auto.
Qed.

Lemma fold_max_ge l x : In x l -> x <= fold_right Nat.max 0 l.
Proof. induction l as [|a l IH]; simpl; [tauto|]. intros [->|H]; [lia|specialize (IH H); lia]. Qed.
Lemma fold_max_le l b : (forall x, In x l -> x <= b) -> fold_right Nat.max 0 l <= b.
Proof. induction l as [|a l IH]; simpl; intros H; [lia|]. assert (a <= b) by auto. specialize (IH (fun x h => H x (or_intror h))). lia. Qed.

Variable maxsize : nat.

Lemma wrap_item n a j : (forall l, a = Iterator A l -> length l <= maxsize) ->
  nth_error (wrap A n a) j = if j <? n then item A a j else match long A a with None => None | Some _ => item A a j end.
Proof.
  assert (HR : forall x : A, nth_error (repeat x n) j = if j <? n then Some x else None).
  { intros x. destruct (j <? n) eqn:E.
    - apply Nat.ltb_lt in E. rewrite nth_error_nth' with (d := x) by (rewrite repeat_length; lia).
      f_equal. apply nth_repeat.
    - apply Nat.ltb_ge in E. apply nth_error_None. rewrite repeat_length; lia. }
  destruct a as [x|l|l]; simpl; intros _.
  - apply HR.
  - destruct l as [|x [|y l]]; simpl; [destruct (j <? n); auto|apply HR|destruct (j <? n); auto].
  - destruct (j <? n); auto.
Qed.

Lemma wrap_length n a : length (wrap A n a) = match long A a with None => n | Some m => m end.
Proof.
  destruct a as [x|l|l]; simpl; [apply repeat_length| |reflexivity].
  destruct l as [|x [|y l]]; simpl; try reflexivity. apply repeat_length.
Qed.

Theorem zip_broadcast_spec args rows :
  (forall l, In (Iterator A l) args -> length l <= maxsize) -> 1 <= maxsize ->
  zip_broadcast A maxsize args = Ok rows ->
  (forall j t, nth_error rows j = Some t -> Forall2 (fun a x => item A a j = Some x) args t) /\
  ((forall a, In a args -> long A a = None) /\ length rows = 1 \/
   (exists a, In a args /\ long A a = Some (length rows)) /\
   forall a m, In a args -> long A a = Some m -> length rows <= m).
Proof.
  intros Hit Hms. unfold zip_broadcast. destruct args as [|a0 args'] eqn:Ea; [discriminate|]. rewrite <- Ea in *.
  set (n := fold_right Nat.max 0 (map (zarg_len A maxsize) args)).
  intros H; injection H as <-.
  set (rs := map (wrap A n) args).
  assert (Hrs : In (hd [] rs) rs) by (unfold rs; rewrite Ea; simpl; auto).
  destruct (zip_rows_spec (length (hd [] rs)) rs) as [Z1 Z2]; [eauto|].
  set (out := zip_rows A (length (hd [] rs)) rs) in *.
  assert (Hn1 : forall a, In a args -> 1 <= n \/ zarg_len A maxsize a = 0).
  { intros a Ha. assert (zarg_len A maxsize a <= n) by (apply fold_max_ge, in_map, Ha). lia. }
  assert (Hshort : forall a, In a args -> length out <= length (wrap A n a)).
  { intros a Ha. destruct (Nat.lt_ge_cases (length (wrap A n a)) (length out)) as [Hlt|]; [|auto].
    destruct (Z1 (length (wrap A n a)) Hlt) as (t & _ & HF).
    assert (Hin : In (wrap A n a) rs) by (apply in_map; auto).
    exfalso. clear -HF Hin. induction HF as [|r x rs' t' Hx HF IH]; [destruct Hin|].
    destruct Hin as [->|Hin]; auto.
    assert (nth_error (wrap A n a) (length (wrap A n a)) <> None) by congruence. apply nth_error_Some in H; lia. }
  split.
  - intros j t Ht. assert (Hj : j < length out) by (apply nth_error_Some; congruence).
    destruct (Z1 j Hj) as (t' & E & HF). rewrite Ht in E; injection E as <-.
    assert (HG : forall args0, (forall a, In a args0 -> In a args) -> forall t0,
       Forall2 (fun r x => nth_error r j = Some x) (map (wrap A n) args0) t0 -> Forall2 (fun a x => item A a j = Some x) args0 t0).
    { induction args0 as [|a args0 IH]; intros Hsub t0 H0; inversion H0; subst; constructor.
      - match goal with H : nth_error (wrap A n a) j = Some _ |- _ => rename H into He end.
        rewrite wrap_item in He by (intros l ->; apply Hit, Hsub; simpl; auto).
        destruct (j <? n); auto. destruct (long A a); [auto|discriminate].
      - apply IH; auto. intros; apply Hsub; simpl; auto. }
    apply (HG args); auto.
  - destruct Z2 as (r & Hr & El). apply in_map_iff in Hr as (a & <- & Ha). rewrite wrap_length in El.
    assert (HL : forall a m, In a args -> long A a = Some m -> length out <= m).
    { intros b m Hb Eb. specialize (Hshort b Hb). rewrite wrap_length, Eb in Hshort. exact Hshort. }
    destruct (long A a) as [m|] eqn:Eg.
    + right. split; [exists a; split; [auto|congruence]|exact HL].
    + assert (Hdec : (forall b, In b args -> long A b = None) \/ exists b m, In b args /\ long A b = Some m).
      { clear. induction args as [|b args IH]; [left; intros ? []|]. destruct (long A b) as [m|] eqn:E.
        - right; exists b, m; simpl; auto.
        - destruct IH as [IH|(c & m & H & Hc)]; [left; intros c [<-|Hc]; auto|right; exists c, m; simpl; auto]. }
      destruct Hdec as [Hnone|(b & m & Hb & Em)].
      * left; split; [exact Hnone|].
        assert (n <= 1).
        { apply fold_max_le. intros x Hx. apply in_map_iff in Hx as (b & <- & Hb). specialize (Hnone b Hb).
          destruct b as [x|l|l]; simpl in *; [lia| |discriminate]. destruct (length l =? 1) eqn:E1; [|discriminate].
          apply Nat.eqb_eq in E1; lia. }
        assert (1 <= n).
        { assert (zarg_len A maxsize a <= n) by (apply fold_max_ge, in_map, Ha).
          destruct a as [x|l|l]; simpl in *; [lia| |discriminate]. destruct (length l =? 1) eqn:E1; [|discriminate].
          apply Nat.eqb_eq in E1; lia. }
        lia.
      * right. split; [|exact HL].
        (* n >= every long length, so the minimum is reached by a long argument *)
        assert (Hm : m <= n).
        { assert (zarg_len A maxsize b <= n) by (apply fold_max_ge, in_map, Hb).
          destruct b as [x|l|l]; simpl in *; [discriminate| |].
          - destruct (length l =? 1); [discriminate|]. injection Em as <-; lia.
          - injection Em as <-. specialize (Hit l Hb). lia. }
        exists b; split; [auto|]. rewrite Em. f_equal. specialize (HL b m Hb Em). lia.
Qed.

(** inspect_special_values *)
Variables z o mo : A.
Hypothesis distinct : z <> o /\ z <> mo /\ o <> mo.

Definition special (a : A) : Prop := a = z \/ a = o \/ a = mo.

Lemma count_cons a l b : count A eqb (a :: l) b = if eqb a b then S (count A eqb l b) else count A eqb l b.
Proof. unfold count; simpl. destruct (eqb a b); reflexivity. Qed.
Lemma count_nil b : count A eqb [] b = 0.
Proof. reflexivity. Qed.

Lemma inspect_loop_spec v0 v c :
  (same c = false -> other c = false) ->
  let r := inspect_loop A eqb z o mo v0 v c in
  let same' := same c && forallb (fun a => eqb a v0) v in
  if other c || existsb (fun a => negb (eqb a z || eqb a o || eqb a mo)) v then
    r = {| nmones := 0; nzeros := 0; nones := 0; other := true; same := same' |}
  else r = {| nmones := nmones c + count A eqb v mo; nzeros := nzeros c + count A eqb v z;
              nones := nones c + count A eqb v o; other := false; same := same' |}.
Proof.
  destruct distinct as (D1 & D2 & D3). apply eqb_neq in D1, D2, D3.
  assert (D1' : eqb o z = false) by (apply eqb_neq; apply eqb_neq in D1; congruence).
  assert (D2' : eqb mo z = false) by (apply eqb_neq; apply eqb_neq in D2; congruence).
  assert (D3' : eqb mo o = false) by (apply eqb_neq; apply eqb_neq in D3; congruence).
  revert c; induction v as [|a v IH]; intros c Hc.
  - simpl. destruct c as [nm nz no ot sa]; simpl in *. rewrite andb_true_r, orb_false_r, !count_nil, !Nat.add_0_r.
    destruct ot; [destruct sa; [reflexivity|specialize (Hc eq_refl); discriminate]|reflexivity].
  - cbn [inspect_loop existsb forallb]. rewrite !count_cons.
    destruct c as [nm nz no ot sa]; cbn [nmones nzeros nones other same] in *.
    destruct (eqb a z) eqn:Ez; [apply eqb_spec in Ez; subst a; rewrite D1, D2
      |destruct (eqb a o) eqn:Eo; [apply eqb_spec in Eo; subst a; rewrite D3
      |destruct (eqb a mo) eqn:Em; [apply eqb_spec in Em; subst a|]]];
    cbn [negb orb nmones nzeros nones other same];
    (match goal with |- context [eqb ?x v0] => destruct (eqb x v0) end);
    destruct sa, ot; try (specialize (Hc eq_refl); discriminate);
    cbn [negb orb andb nmones nzeros nones other same]; try reflexivity;
    match goal with |- context [inspect_loop A eqb z o mo v0 v ?c] =>
      specialize (IH c); cbn [negb orb andb nmones nzeros nones other same] in IH; specialize (IH ltac:(congruence)) end;
    try (exact IH);
    destruct (existsb _ v); rewrite IH; f_equal; lia.
Qed.

Lemma existsb_other v : existsb (fun a => negb (eqb a z || eqb a o || eqb a mo)) v = true <-> exists a, In a v /\ ~ special a.
Proof.
  rewrite existsb_exists. split; intros (a & Ha & H); exists a; split; auto.
  - apply negb_true_iff, orb_false_iff in H as [H H3]. apply orb_false_iff in H as [H1 H2].
    apply eqb_neq in H1, H2, H3. unfold special; tauto.
  - unfold special in H. apply negb_true_iff. rewrite !orb_false_iff, !eqb_neq. tauto.
Qed.

Theorem inspect_spec v : v <> [] ->
  let r := inspect_special_values A eqb z o mo v in
  (same r = true <-> all_same A v) /\
  ((forall a, In a v -> special a) /\ other r = false /\
     nmones r = count A eqb v mo /\ nzeros r = count A eqb v z /\ nones r = count A eqb v o \/
   (exists a, In a v /\ ~ special a) /\ other r = true /\ nmones r = 0 /\ nzeros r = 0 /\ nones r = 0).
Proof.
  intros Hne. unfold inspect_special_values. destruct v as [|v0 v'] eqn:Ev; [congruence|]. rewrite <- Ev in *.
  pose proof (inspect_loop_spec v0 v {| nmones := 0; nzeros := 0; nones := 0; other := false; same := true |} ltac:(auto)) as H.
  cbn [negb orb andb nmones nzeros nones other same plus] in H.
  assert (Hs : forallb (fun a => eqb a v0) v = true <-> all_same A v).
  { rewrite forallb_forall. unfold all_same. split.
    - intros Hf a b Ha Hb. apply Hf, eqb_spec in Ha. apply Hf, eqb_spec in Hb. congruence.
    - intros Hf a Ha. apply eqb_spec, Hf; auto. rewrite Ev; simpl; auto. }
  destruct (existsb _ v) eqn:Ex; cbn zeta; rewrite H; cbn [nmones nzeros nones other same].
  - apply existsb_other in Ex. split; [exact Hs|right; auto].
  - split; [exact Hs|left]. split; [|auto]. intros a Ha.
    destruct (eqb a z) eqn:E1; [apply eqb_spec in E1; left; auto|].
    destruct (eqb a o) eqn:E2; [apply eqb_spec in E2; right; left; auto|].
    destruct (eqb a mo) eqn:E3; [apply eqb_spec in E3; right; right; auto|].
    exfalso. assert (existsb (fun a => negb (eqb a z || eqb a o || eqb a mo)) v = true); [|congruence].
    apply existsb_exists; exists a; split; auto. rewrite E1, E2, E3; reflexivity.
Qed.
End Helpers.

Theorem inspect_bool_spec v : v <> [] ->
  let r := inspect_bool v in
  nmones r = 0 /\ nzeros r = count bool Bool.eqb v false /\ nones r = count bool Bool.eqb v true /\ other r = false /\
  (same r = true <-> all_same bool v).
Proof.
  intros Hne. unfold inspect_bool. destruct v as [|v0 v'] eqn:Ev; [congruence|]. rewrite <- Ev in *. cbn [nmones nzeros nones other same].
  assert (E : forall l, length (filter negb l) = count bool Bool.eqb l false).
  { reflexivity. }
  assert (E' : forall l, length l = count bool Bool.eqb l false + count bool Bool.eqb l true).
  { unfold count; induction l as [|[] l IH]; simpl; lia. }
  rewrite E. split; [reflexivity|split; [reflexivity|split; [specialize (E' v); lia|split; [reflexivity|]]]].
  rewrite orb_true_iff, !Nat.eqb_eq.
  assert (Z : forall l b, count bool Bool.eqb l b = 0 <-> forall a, In a l -> a = negb b).
  { intros l b; unfold count; induction l as [|a l IH]; simpl; [split; [intros _ ? []|reflexivity]|].
    destruct (Bool.eqb a b) eqn:Eb; simpl.
    - apply eqb_prop in Eb; subst. split; [discriminate|]. intros H. specialize (H b (or_introl eq_refl)). destruct b; discriminate.
    - rewrite IH. split; intros H x; [intros [<-|Hx]; auto; destruct a, b; simpl in *; congruence|intros Hx; auto]. }
  split.
  - intros [H|H] a b Ha Hb.
    + rewrite (proj1 (Z v false) H a Ha), (proj1 (Z v false) H b Hb); reflexivity.
    + assert (H0 : count bool Bool.eqb v true = 0) by (specialize (E' v); lia).
      rewrite (proj1 (Z v true) H0 a Ha), (proj1 (Z v true) H0 b Hb); reflexivity.
  - intros H. destruct v0.
    + left. apply Z. intros a Ha. rewrite (H a true); auto. rewrite Ev; simpl; auto.
    + right. assert (H0 : count bool Bool.eqb v true = 0).
      { apply Z. intros a Ha. rewrite (H a false); auto. rewrite Ev; simpl; auto. }
      specialize (E' v); lia.
Qed.
