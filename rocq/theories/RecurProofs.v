(** Proofs about the construction of iterative algorithms. *)
From Coq Require Import Ascii String Decimal DecimalNat Sorting.Sorted Permutation FinFun.
From Verif Require Import Base RecurModel RecurSpec.
Set Implicit Arguments. Unset Strict Implicit.

(** ** Texts *)
Lemma startswith_iff : forall s k, startswith s k = true <-> exists r, k = s ++ r.
Proof.
  induction s as [|a s IH]; intros k; cbn [startswith].
  - split; [intros _; now exists k|reflexivity].
  - destruct k as [|b k]; [split; [discriminate|intros (r & H); discriminate H]|].
    destruct (ascii_dec a b) as [->|N].
    + rewrite IH. split; intros (r & H); exists r; [now rewrite H|now injection H].
    + split; [discriminate|]. intros (r & H). injection H as H _. now elim N.
Qed.
Lemma endswith_iff : forall s k, endswith s k = true <-> ends_in s k.
Proof.
  intros s k. unfold endswith. rewrite startswith_iff. split; intros (r & H); exists (rev r).
  - apply (f_equal (@rev _)) in H. now rewrite rev_involutive, rev_app_distr, rev_involutive in H.
  - now rewrite H, rev_app_distr.
Qed.
Lemma eqb_name_iff : forall a b, eqb_name a b = true <-> a = b.
Proof. intros a b. unfold eqb_name. destruct (list_eq_dec ascii_dec a b); split; congruence. Qed.
Lemma chars_digits : forall d, chars d = digits d.
Proof. induction d; cbn [chars digits]; [reflexivity| |  |  |  |  |  |  |  |  | ]; rewrite IHd; reflexivity. Qed.
Lemma chars_inj : forall d d', chars d = chars d' -> d = d'.
Proof. induction d; destruct d'; cbn [chars]; intros H; try discriminate H; [reflexivity| | | | | | | | | |]; injection H as H; f_equal; now apply IHd. Qed.
Lemma str_inj : forall n m, str n = str m -> n = m.
Proof. intros n m H. apply Unsigned.to_uint_inj. now apply chars_inj. Qed.
Lemma chars_decimal : forall d, Forall decimal_digit (chars d).
Proof. induction d; cbn [chars]; constructor; try assumption; unfold decimal_digit; vm_compute; split; lia. Qed.
Lemma older_old : forall j, exists ds, older (S j) = lit "_old" ++ ds /\ Forall decimal_digit ds.
Proof.
  intros [|j]; cbn [older].
  - exists []. now rewrite app_nil_r.
  - exists (digits (Nat.to_uint (S (S j)))). split; [reflexivity|]. rewrite <- chars_digits. apply chars_decimal.
Qed.
Lemma older_str : forall j, older (S (S j)) = lit "_old" ++ str (S (S j)).
Proof. intros j. unfold str. now rewrite chars_digits. Qed.
Lemma digits_split : forall (P : ascii -> Prop) c xs ys r r', Forall P xs -> Forall P ys -> ~ P c -> xs ++ c :: r = ys ++ c :: r' ->
  xs = ys /\ r = r'.
Proof.
  intros P c. induction xs as [|x xs IH]; intros [|y ys] r r' X Y N H; cbn [app] in H.
  - now injection H as H.
  - injection H as H _. inversion Y; subst; contradiction.
  - injection H as H _. inversion X; subst; contradiction.
  - injection H as -> H. inversion X; inversion Y; subst. destruct (IH ys r r') as [-> ->]; auto.
Qed.
Lemma old_split : forall p p' ds ds', Forall decimal_digit ds -> Forall decimal_digit ds' ->
  p ++ lit "_old" ++ ds = p' ++ lit "_old" ++ ds' -> p = p' /\ ds = ds'.
Proof.
  intros p p' ds ds' D D' H. apply (f_equal (@rev _)) in H. rewrite !rev_app_distr, <- !app_assoc in H.
  change (rev (lit "_old")) with ("d"%char :: lit "lo_") in H. cbn [app] in H.
  apply (digits_split (P := decimal_digit)) in H; [|now apply Forall_rev|now apply Forall_rev|intros [_ K]; vm_compute in K; lia].
  destruct H as [H K]. split; [|rewrite <- (rev_involutive ds), H; apply rev_involutive].
  apply app_inv_head in K. rewrite <- (rev_involutive p), K. apply rev_involutive.
Qed.
Lemma older_inj : forall i j p p', p ++ older (S i) = p' ++ older (S j) -> p = p' /\ i = j.
Proof.
  intros i j p p' H. destruct (older_old i) as (ds & E & D). destruct (older_old j) as (ds' & E' & D').
  assert (K := H). rewrite E, E' in K. apply old_split in K; [|assumption|assumption]. destruct K as [-> K]. split; [reflexivity|].
  subst ds'. rewrite <- E in E'. clear - E'. destruct i as [|i]; destruct j as [|j]; [reflexivity| | |].
  - rewrite older_str in E'. change (older 1) with (lit "_old" ++ []) in E'. apply app_inv_head in E'. exfalso.
    unfold str in E'. symmetry in E'. change (@nil ascii) with (chars Nil) in E'. apply chars_inj in E'.
    apply (f_equal Nat.of_uint) in E'. rewrite Unsigned.of_to in E'. discriminate E'.
  - rewrite older_str in E'. change (older 1) with (lit "_old" ++ []) in E'. apply app_inv_head in E'. exfalso.
    unfold str in E'. change (@nil ascii) with (chars Nil) in E'. apply chars_inj in E'. apply (f_equal Nat.of_uint) in E'.
    rewrite Unsigned.of_to in E'. discriminate E'.
  - rewrite !older_str in E'. apply app_inv_head in E'. apply str_inj in E'. lia.
Qed.
Lemma ends_unique : forall i j k, ends_in (older (S i)) k -> ends_in (older (S j)) k -> i = j.
Proof. intros i j k (p & ->) (p' & H). now apply older_inj in H. Qed.

(** ** Variables *)
Lemma is_digit_iff : forall c, is_digit c = true <-> decimal_digit c.
Proof. intros c. unfold is_digit, decimal_digit. rewrite Bool.andb_true_iff, !Nat.leb_le. reflexivity. Qed.
Lemma is_suffix_iff : forall t, is_suffix t = true <->
  t = lit "_new" \/ t = lit "_dtype" \/ exists ds, Forall decimal_digit ds /\ t = lit "_old" ++ ds.
Proof.
  intros t. unfold is_suffix. rewrite !Bool.orb_true_iff, Bool.andb_true_iff, !eqb_name_iff, startswith_iff, forallb_forall. split.
  - intros [[[(r & ->) F]|H]|H]; [|now left|right; now left]. right. right. exists r. split; [|reflexivity].
    apply Forall_forall. intros c I. apply is_digit_iff. now apply F.
  - intros [H|[H|(ds & D & ->)]]; [left; now right|now right|]. left. left. split; [now exists ds|].
    intros c I. apply is_digit_iff. rewrite Forall_forall in D. now apply D.
Qed.
Lemma is_variable_tails : forall k, is_variable k = true <-> forall p t, k = p ++ t -> t <> [] -> is_suffix t = false.
Proof.
  induction k as [|c k IH].
  - split; [|reflexivity]. intros _ p t H N. symmetry in H. apply app_eq_nil in H. now destruct H.
  - cbn [is_variable]. rewrite Bool.andb_true_iff, Bool.negb_true_iff, IH. split.
    + intros [H K] [|b p] t E N; cbn [app] in E; [now subst t|]. injection E as -> E. now apply (K p).
    + intros H. split; [now apply (H [])|]. intros p t E N. apply (H (c :: p)); [now rewrite E|assumption].
Qed.
Lemma is_variable_iff : forall k, is_variable k = true <-> plain k.
Proof.
  intros k. rewrite is_variable_tails. unfold plain. split.
  - intros H. assert (K : forall t, t <> [] -> is_suffix t = true -> ~ ends_in t k).
    { intros t N I (p & E). rewrite (H p t E N) in I. discriminate I. }
    split; [|split]; [| |intros ds D]; apply K; try discriminate; apply is_suffix_iff; [now left|right; now left|].
    right. right. now exists ds.
  - intros (N & D & O) p t E _. destruct (is_suffix t) eqn:I; [|reflexivity]. exfalso. apply is_suffix_iff in I.
    destruct I as [->|[->|(ds & F & ->)]]; [apply N|apply D|apply (O ds F)]; now exists p.
Qed.
Lemma plain_older : forall j v, plain v -> ~ ends_in (older (S j)) v.
Proof. intros j v (_ & _ & O). destruct (older_old j) as (ds & -> & D). now apply O. Qed.

(** ** The order of the recursion *)
Lemma existsb_ends : forall j names, existsb (endswith (older j)) names = true <-> exists k, In k names /\ ends_in (older j) k.
Proof. intros j names. rewrite existsb_exists. split; intros (k & I & H); exists k; (split; [assumption|]); now apply endswith_iff. Qed.
Definition others (j : nat) (names : list name) : list name := filter (fun k => negb (endswith (older (S j)) k)) names.
Lemma others_shorter : forall j names, existsb (endswith (older (S j))) names = true -> length (others j names) < length names.
Proof.
  intros j. assert (L : forall names, length (others j names) <= length names).
  { induction names as [|k names IH]; [reflexivity|]. unfold others. cbn [filter]. destruct (negb _); cbn [length]; fold (others j names); lia. }
  induction names as [|k names IH]; cbn [existsb]; [discriminate|]. intros H. unfold others. cbn [filter].
  destruct (endswith (older (S j)) k); cbn [negb length]; fold (others j names).
  - specialize (L names). lia.
  - cbn [orb] in H. apply IH in H. lia.
Qed.
Lemma others_ends : forall i j names, i <> j -> existsb (endswith (older (S i))) (others j names) = existsb (endswith (older (S i))) names.
Proof.
  intros i j names N. induction names as [|k names IH]; [reflexivity|]. unfold others. cbn [filter].
  destruct (endswith (older (S j)) k) eqn:E; cbn [negb existsb]; fold (others j names); rewrite IH; [|reflexivity].
  destruct (endswith (older (S i)) k) eqn:E'; [|reflexivity]. exfalso. apply N.
  apply endswith_iff in E. apply endswith_iff in E'. exact (ends_unique E' E).
Qed.
Lemma raise_order_ext : forall fuel n names names',
  (forall i, n <= S (S i) -> existsb (endswith (older (S (S i)))) names = existsb (endswith (older (S (S i)))) names') -> 2 <= n ->
  raise_order fuel n names = raise_order fuel n names'.
Proof.
  induction fuel as [|fuel IH]; intros n names names' H L; [reflexivity|]. cbn [raise_order].
  destruct n as [|[|n]]; [lia|lia|]. rewrite <- older_str, (H n) by lia. destruct (existsb _ names'); [|reflexivity].
  apply IH; [|lia]. intros i Li. apply H. lia.
Qed.
Lemma raise_order_spec : forall fuel names n, 2 <= n -> length names <= fuel -> let r := raise_order fuel n names in
  n <= r /\ (forall j, n <= j < r -> exists k, In k names /\ ends_in (older j) k) /\ forall k, In k names -> ~ ends_in (older r) k.
Proof.
  induction fuel as [|fuel IH]; intros names n L Lf; cbn [raise_order].
  - assert (names = []) as -> by (destruct names; [reflexivity|cbn in Lf; lia]). split; [lia|]. split; [intros j Hj; lia|intros k []].
  - destruct n as [|[|n]]; [lia|lia|]. rewrite <- older_str. destruct (existsb (endswith (older (S (S n)))) names) eqn:E.
    + assert (X : raise_order fuel (S (S (S n))) names = raise_order fuel (S (S (S n))) (others (S n) names)).
      { apply raise_order_ext; [|lia]. intros i Li. symmetry. apply others_ends. lia. }
      assert (Lo := others_shorter E). destruct (IH (others (S n) names) (S (S (S n)))) as (A & B & C); [lia|lia|].
      rewrite X. split; [lia|]. split.
      * intros j Hj. destruct (Nat.eq_dec j (S (S n))) as [->|Nj]; [now apply existsb_ends|].
        destruct (B j) as (k & I & H); [lia|]. exists k. split; [|assumption]. unfold others in I. now apply filter_In in I.
      * intros k I H. remember (raise_order fuel (S (S (S n))) (others (S n) names)) as r eqn:Er. destruct r as [|r]; [lia|].
        assert (K : existsb (endswith (older (S r))) names = true) by (apply existsb_ends; now exists k).
        rewrite <- (@others_ends r (S n)) in K by lia. apply existsb_ends in K. destruct K as (k' & I' & H'). exact (C k' I' H').
    + split; [lia|]. split; [intros j Hj; lia|]. intros k I H.
      assert (K : existsb (endswith (older (S (S n)))) names = true) by (apply existsb_ends; now exists k). congruence.
Qed.
Lemma set_order_spec : forall names : list name, recursion_order names (set_order names).
Proof.
  intros names. unfold set_order, recursion_order. change (lit "_old") with (older 1).
  destruct (existsb (endswith (older 1)) names) eqn:E.
  - destruct (@raise_order_spec (length names) names 2) as (A & B & C); [lia|lia|]. split; [lia|]. split; [|assumption].
    intros j Hj. destruct (Nat.eq_dec j 1) as [->|N]; [now apply existsb_ends|]. apply B. lia.
  - split; [lia|]. split; [intros j Hj; lia|]. intros k I H.
    assert (K : existsb (endswith (older 1)) names = true) by (apply existsb_ends; now exists k). congruence.
Qed.
Lemma order_unique : forall names n m, recursion_order names n -> recursion_order names m -> n = m.
Proof.
  assert (W : forall names n m, recursion_order names n -> recursion_order names m -> n <= m).
  { intros names n m (A & B & _) (A' & _ & C'). destruct (le_lt_dec n m) as [H|H]; [assumption|]. exfalso.
    destruct (B m) as (k & I & E); [lia|]. exact (C' k I E). }
  intros names n m H K. apply Nat.le_antisymm; eapply W; eassumption.
Qed.
Lemma get_suffix_older : forall n, 1 <= n -> get_suffix false n = lit "_new" :: map older (seq 0 n).
Proof.
  intros [|[|[|n]]] L; [lia|reflexivity|reflexivity|]. unfold get_suffix.
  change (Nat.eqb (S (S (S n))) 1) with false. change (Nat.eqb (S (S (S n))) 2) with false. cbn [app seq map]. do 3 f_equal.
  replace (S (S (S n)) + 1 - 3) with (S n) by lia. rewrite <- (seq_shift (S n) 2), map_map. change (older 2 :: map older (seq 3 n)) with (map older (seq 2 (S n))).
  apply map_ext_in. intros j I. apply in_seq in I. destruct j as [|[|j]]; [lia|lia|]. rewrite older_str. cbn [Nat.sub]. reflexivity.
Qed.

(** ** The initial values *)
Lemma lookup_in : forall kws n x, lookup n kws = Some x -> In (n, x) kws.
Proof.
  intros kws n x. unfold lookup. destruct (find _ kws) as [[n' x']|] eqn:F; [|discriminate]. cbn. intros H. injection H as ->.
  apply find_some in F. destruct F as [I E]. cbn in E. apply eqb_name_iff in E. now subst n'.
Qed.
Lemma lookup_none : forall kws n, lookup n kws = None -> forall x, ~ In (n, x) kws.
Proof.
  intros kws n H x I. unfold lookup in H. destruct (find (fun y => eqb_name (fst y) n) kws) as [y|] eqn:F; [discriminate H|].
  apply find_none with (x := (n, x)) in F; [|assumption]. cbn in F.
  assert (K : eqb_name n n = true) by now apply eqb_name_iff. congruence.
Qed.
Lemma same_key : forall (kws : keywords) n x y, NoDup (map fst kws) -> In (n, x) kws -> In (n, y) kws -> x = y.
Proof.
  induction kws as [|[k z] kws IH]; intros n x y N I J; [destruct I|]. cbn in N. inversion N as [|? ? Nk N']; subst.
  destruct I as [I|I]; destruct J as [J|J].
  - congruence.
  - exfalso. injection I as -> ->. apply Nk. now apply (in_map fst) in J.
  - exfalso. injection J as -> ->. apply Nk. now apply (in_map fst) in I.
  - eapply IH; eassumption.
Qed.
Lemma in_lookup : forall kws n x, NoDup (map fst kws) -> In (n, x) kws -> lookup n kws = Some x.
Proof.
  intros kws n x N I. destruct (lookup n kws) as [y|] eqn:E.
  - f_equal. apply lookup_in in E. now apply (@same_key kws n).
  - now apply lookup_none with (x := x) in E.
Qed.
Lemma given_iff : forall kws n, given n kws = true <-> exists x, In (n, x) kws.
Proof.
  intros kws n. unfold given. rewrite existsb_exists. split.
  - intros ([k x] & I & E). apply eqb_name_iff in E. cbn in E. subst k. now exists x.
  - intros (x & I). exists (n, x). split; [assumption|]. now apply eqb_name_iff.
Qed.
Lemma given_key : forall kws n, given n kws = true <-> In n (map fst kws).
Proof.
  intros kws n. rewrite given_iff, in_map_iff. split.
  - intros (x & I). now exists (n, x).
  - intros ([k x] & E & I). cbn in E. subst k. now exists x.
Qed.
Definition final_type (fixed : bool) (d : dtype) (vals : list arg) : result dtype :=
  if negb fixed && is_float (d_kind d) && existsb (fun x => is_complex (kind_of x)) vals then complex_of d else Ok d.
Lemma initial_values_final : forall kws names vals fixed d, Forall2 (fun n x => lookup n kws = Some x) names vals ->
  initial_values fixed d names kws = (d' <- final_type fixed d vals ;; Ok (map shape_of vals, d')).
Proof.
  intros kws names vals fixed d H. revert d. induction H as [|n x names vals E H IH]; intros d; cbn [initial_values map].
  - unfold final_type. cbn [existsb]. now rewrite Bool.andb_false_r.
  - rewrite E. unfold final_type. cbn [existsb]. destruct (negb fixed && is_float (d_kind d)) eqn:Q; cbn [andb].
    + destruct (is_complex (kind_of x)); cbn [orb].
      * unfold complex_of. destruct (existsb (Nat.eqb (d_bits d)) _); cbn [rbind]; [|reflexivity]. rewrite IH. unfold final_type. cbn.
        rewrite Bool.andb_false_r. reflexivity.
      * cbn [rbind]. rewrite IH. unfold final_type. rewrite Q. cbn [andb]. destruct (existsb _ vals); [|reflexivity].
        destruct (complex_of d); reflexivity.
    + cbn [rbind]. rewrite IH. unfold final_type. rewrite Q. reflexivity.
Qed.
Lemma initial_values_given : forall kws names fixed d r, initial_values fixed d names kws = Ok r ->
  exists vals, Forall2 (fun n x => lookup n kws = Some x) names vals.
Proof.
  intros kws. induction names as [|n names IH]; intros fixed d r; cbn [initial_values]; [intros _; now exists []|].
  destruct (lookup n kws) as [x|] eqn:E; [|discriminate].
  destruct (if negb fixed && _ && _ then _ else _) as [d'|]; cbn [rbind]; [|discriminate].
  destruct (initial_values fixed d' names kws) as [r'|] eqn:I; cbn [rbind]; [|discriminate]. intros _.
  apply IH in I. destruct I as (vals & F). exists (x :: vals). now constructor.
Qed.

(** ** The entries *)
Definition count (inplace : bool) (order : nat) : nat := if inplace then 1 else order.
Lemma values_names : forall (inplace : bool) (order : nat) (v : name), 1 <= order ->
  skipn (if inplace then 0 else 1) (map (fun s => v ++ s) (get_suffix inplace order)) = map (fun j => v ++ older j) (seq 0 (count inplace order)).
Proof.
  intros [|] order v L; cbn [count]; [reflexivity|]. rewrite get_suffix_older by assumption. cbn [map skipn]. apply map_map.
Qed.
Lemma collect_values : forall kws (f : nat -> name) l, (forall j, In j l -> exists x, lookup (f j) kws = Some x) ->
  exists vals, Forall2 (fun n x => lookup n kws = Some x) (map f l) vals.
Proof.
  intros kws f. induction l as [|j l IH]; intros H; [exists []; constructor|].
  destruct (H j) as (x & E); [now left|]. destruct IH as (vals & F); [intros i I; apply H; now right|].
  exists (x :: vals). now constructor.
Qed.
Lemma Forall2_left {A B} (R : A -> B -> Prop) : forall l l' a, Forall2 R l l' -> In a l -> exists b, In b l' /\ R a b.
Proof. intros l l' a F. induction F as [|x y l l' Q F IH]; intros I; [destruct I|]. destruct I as [->|I]; [exists y; split; [now left|assumption]|].
  destruct (IH I) as (b & J & K). exists b. split; [now right|assumption]. Qed.
Lemma Forall2_right {A B} (R : A -> B -> Prop) : forall l l' b, Forall2 R l l' -> In b l' -> exists a, In a l /\ R a b.
Proof. intros l l' b F. induction F as [|x y l l' Q F IH]; intros I; [destruct I|]. destruct I as [->|I]; [exists x; split; [now left|assumption]|].
  destruct (IH I) as (a & J & K). exists a. split; [now right|assumption]. Qed.
Lemma existsb_false {A} (f : A -> bool) : forall l, existsb f l = false <-> forall x, In x l -> f x = false.
Proof.
  intros l. split.
  - intros H x I. destruct (f x) eqn:E; [|reflexivity]. assert (K : existsb f l = true) by (apply existsb_exists; now exists x). congruence.
  - intros H. destruct (existsb f l) eqn:E; [|reflexivity]. apply existsb_exists in E. destruct E as (x & I & E). now rewrite H in E.
Qed.
Lemma eqb_shape_iff : forall a b, eqb_shape a b = true <-> a = b.
Proof. intros a b. unfold eqb_shape. destruct (list_eq_dec Nat.eq_dec a b); split; congruence. Qed.
Definition chosen_type (kws : keywords) (m : nat) (default : dtype) (v : name) (d : dtype) : Prop :=
  (forall d', In (v ++ lit "_dtype", Type_ d') kws -> d = d') /\
  (without_dtype kws v -> (d_kind default = Float -> complex_value kws m v -> d = {| d_kind := Complex; d_bits := 2 * d_bits default |}) /\
                          (~ (d_kind default = Float /\ complex_value kws m v) -> d = default)).

Section Entry.
Context (kws : keywords) (keys : NoDup (map fst kws)) (inplace : bool) (order : nat) (positive : 1 <= order) (default : dtype).
Notation m := (count inplace order).
Lemma vals_complex : forall v vals, Forall2 (fun n x => lookup n kws = Some x) (map (fun j => v ++ older j) (seq 0 m)) vals ->
  existsb (fun x => is_complex (kind_of x)) vals = true <-> complex_value kws m v.
Proof.
  intros v vals F. rewrite existsb_exists. split.
  - intros (x & I & C). destruct (Forall2_right F I) as (n & J & E). apply in_map_iff in J. destruct J as (j & <- & J). apply in_seq in J.
    destruct x as [sh k|d]; [|discriminate C]. destruct k; try discriminate C. exists j, sh. split; [lia|]. now apply lookup_in.
  - intros (j & sh & L & I). destruct (@Forall2_left _ _ _ _ _ (v ++ older j) F) as (x & J & E).
    { apply in_map_iff. exists j. split; [reflexivity|]. apply in_seq. lia. }
    rewrite (in_lookup keys I) in E. injection E as <-. now exists (Value sh Complex).
Qed.
Lemma entry_ok : forall v e, variable_entry inplace (get_suffix inplace order) kws default v = Ok e ->
  e_variable e = v /\ e_names e = map (fun s => v ++ s) (get_suffix inplace order) /\ values_given kws m v (e_shape e) /\
  chosen_type kws m default v (e_dtype e) /\ dtype_possible kws m default v.
Proof.
  intros v e. unfold variable_entry. rewrite values_names by assumption.
  destruct (match lookup (v ++ lit "_dtype") kws with Some _ => _ | None => _ end) as [fixed|] eqn:Q; cbn [rbind]; [|discriminate].
  destruct (initial_values _ _ _ kws) as [r|] eqn:I; cbn [rbind]; [|discriminate].
  destruct (initial_values_given I) as (vals & F). rewrite (initial_values_final _ _ F) in I.
  destruct (final_type _ _ vals) as [d|] eqn:T; cbn [rbind] in I; [|discriminate I]. injection I as <-. cbn [fst snd].
  destruct (existsb _ (tl (map shape_of vals))) eqn:S; [discriminate|]. intros H. injection H as <-. cbn.
  split; [reflexivity|]. split; [reflexivity|]. split.
  { intros j L. destruct (@Forall2_left _ _ _ _ _ (v ++ older j) F) as (x & J & E).
    { apply in_map_iff. exists j. split; [reflexivity|]. apply in_seq. lia. }
    exists x. split; [now apply lookup_in|]. change (dims x) with (shape_of x). rewrite existsb_false in S.
    destruct vals as [|y vals]; [destruct J|]. cbn [map hd tl] in *. destruct J as [->|J]; [reflexivity|].
    specialize (S (shape_of x) (in_map shape_of _ _ J)). apply Bool.negb_false_iff in S. now apply eqb_shape_iff in S. }
  assert (V := vals_complex F). split.
  - split.
    + intros d' I. rewrite (in_lookup keys I) in Q. injection Q as <-. unfold final_type in T. cbn in T. now injection T.
    + intros W. destruct (lookup (v ++ lit "_dtype") kws) as [x|] eqn:Lk; [apply lookup_in in Lk; now apply W in Lk|]. injection Q as <-.
      unfold final_type in T. cbn [negb andb] in T. split.
      * intros K C. apply V in C. rewrite C, K in T. cbn [is_float andb] in T. unfold complex_of in T.
        destruct (existsb _ [32; 64; 128]); [now injection T|discriminate T].
      * intros N. destruct (d_kind default) eqn:K; try (cbn in T; now injection T).
        destruct (existsb _ vals) eqn:E; [|cbn in T; now injection T]. exfalso. apply N. split; [reflexivity|]. now apply V.
  - split.
    + intros x I. change (spelled "_dtype") with (lit "_dtype") in I. rewrite (in_lookup keys I) in Q. destruct x as [sh k|d']; [discriminate Q|now exists d'].
    + intros W K C. destruct (lookup (v ++ lit "_dtype") kws) as [x|] eqn:Lk; [apply lookup_in in Lk; now apply W in Lk|]. injection Q as <-.
      unfold final_type in T. cbn [negb andb] in T. apply V in C. rewrite C, K in T. cbn [is_float andb] in T. unfold complex_of in T.
      destruct (existsb _ [32; 64; 128]) eqn:E; [|discriminate T]. apply existsb_exists in E. destruct E as (b & I & E).
      apply Nat.eqb_eq in E. now subst b.
Qed.
Lemma entry_possible : forall v sh, values_given kws m v sh -> dtype_possible kws m default v ->
  exists e, variable_entry inplace (get_suffix inplace order) kws default v = Ok e.
Proof.
  intros v sh G (D & P). unfold variable_entry. rewrite values_names by assumption.
  assert (Q : exists fixed, match lookup (v ++ lit "_dtype") kws with
    | None => Ok None | Some (Type_ d) => Ok (Some d) | Some (Value _ _) => Raise TypeError end = Ok fixed /\
    (fixed = None -> without_dtype kws v)).
  { destruct (lookup (v ++ lit "_dtype") kws) as [x|] eqn:Lk.
    - destruct (D x) as (d & ->); [now apply lookup_in|]. exists (Some d). now split.
    - exists None. split; [reflexivity|]. intros _. exact (lookup_none Lk). }
  destruct Q as (fixed & -> & W). cbn [rbind].
  destruct (@collect_values kws (fun j => v ++ older j) (seq 0 m)) as (vals & F).
  { intros j I. apply in_seq in I. destruct (G j) as (x & J & _); [lia|]. exists x. now apply in_lookup. }
  rewrite (initial_values_final _ _ F). assert (V := vals_complex F).
  assert (T : exists d, final_type (match fixed with Some _ => true | None => false end) (match fixed with Some d => d | None => default end) vals = Ok d).
  { unfold final_type. destruct fixed as [d|]; cbn [negb andb]; [now exists d|].
    destruct (d_kind default) eqn:K; cbn [is_float andb]; try (now exists default).
    destruct (existsb _ vals) eqn:E; [|now exists default]. unfold complex_of.
    assert (I := P (W eq_refl) eq_refl (proj1 V eq_refl)).
    assert (X : existsb (Nat.eqb (d_bits default)) [32; 64; 128] = true)
      by (apply existsb_exists; exists (d_bits default); split; [assumption|apply Nat.eqb_refl]). rewrite X. eauto. }
  destruct T as (d & ->). cbn [rbind fst snd].
  assert (S : existsb (fun s => negb (eqb_shape s (hd [] (map shape_of vals)))) (tl (map shape_of vals)) = false).
  { assert (A : forall x, In x vals -> shape_of x = sh).
    { intros x I. destruct (Forall2_right F I) as (n & J & E). apply in_map_iff in J. destruct J as (j & <- & J). apply in_seq in J.
      destruct (G j) as (y & Iy & Ey); [lia|]. rewrite (in_lookup keys Iy) in E. now injection E as <-. }
    apply existsb_false. intros s I. apply Bool.negb_false_iff, eqb_shape_iff. destruct vals as [|y vals]; [destruct I|]. cbn [map hd tl] in *.
    apply in_map_iff in I. destruct I as (x & <- & I). rewrite (A x) by now right. symmetry. apply A. now left. }
  rewrite S. eauto.
Qed.
End Entry.

(** ** Sorting *)
Lemma leb_alphabetical : forall a b, leb_name a b = true -> alphabetical a b.
Proof.
  induction a as [|x a IH]; intros b H; [left; now exists b|]. destruct b as [|y b]; [discriminate H|]. cbn [leb_name] in H.
  destruct (Nat.ltb_spec (nat_of_ascii x) (nat_of_ascii y)) as [L|L].
  - right. exists [], x, y, a, b. now repeat split.
  - destruct (Nat.eqb_spec (nat_of_ascii x) (nat_of_ascii y)) as [E|]; [|discriminate H].
    assert (x = y) as <- by (rewrite <- (ascii_nat_embedding x), E; apply ascii_nat_embedding).
    destruct (IH b H) as [(r & ->)|(p & c & d & a' & b' & -> & -> & K)]; [left; now exists r|].
    right. exists (x :: p), c, d, a', b'. now repeat split.
Qed.
Lemma leb_total : forall a b, leb_name a b = false -> leb_name b a = true.
Proof.
  induction a as [|x a IH]; intros [|y b]; cbn [leb_name]; try discriminate; [reflexivity|].
  destruct (Nat.ltb_spec (nat_of_ascii x) (nat_of_ascii y)); [discriminate|].
  destruct (Nat.eqb_spec (nat_of_ascii x) (nat_of_ascii y)) as [E|N]; intros K.
  - rewrite E, Nat.ltb_irrefl, Nat.eqb_refl. now apply IH.
  - destruct (Nat.ltb_spec (nat_of_ascii y) (nat_of_ascii x)); [reflexivity|lia].
Qed.
Lemma insert_sorted : forall a l, Sorted alphabetical l -> Sorted alphabetical (insert a l).
Proof.
  intros a. induction l as [|b l IH]; intros H; cbn [insert]; [repeat constructor|]. destruct (leb_name a b) eqn:E.
  - constructor; [assumption|]. constructor. now apply leb_alphabetical.
  - apply leb_total, leb_alphabetical in E. inversion H as [|? ? H' Hd]; subst. constructor; [now apply IH|].
    destruct l as [|c l]; cbn [insert]; [now constructor|]. destruct (leb_name a c); constructor; [assumption|]. now inversion Hd.
Qed.
Lemma sort_sorted : forall l, Sorted alphabetical (sort l).
Proof. induction l as [|a l IH]; cbn; [constructor|]. now apply insert_sorted. Qed.
Lemma insert_perm : forall a l, Permutation (a :: l) (insert a l).
Proof.
  intros a. induction l as [|b l IH]; cbn [insert]; [reflexivity|]. destruct (leb_name a b); [reflexivity|].
  rewrite perm_swap. now constructor.
Qed.
Lemma sort_perm : forall l, Permutation l (sort l).
Proof. induction l as [|a l IH]; cbn; [constructor|]. rewrite <- insert_perm. now constructor. Qed.

(** ** The algorithm *)
Lemma collect_ok {A B} (f : A -> result B) : forall l r, collect f l = Ok r -> Forall2 (fun a b => f a = Ok b) l r.
Proof.
  induction l as [|a l IH]; intros r; cbn [collect]; [intros H; injection H as <-; constructor|].
  destruct (f a) as [b|] eqn:E; cbn [rbind]; [|discriminate]. destruct (collect f l) as [r'|] eqn:C; cbn [rbind]; [|discriminate].
  intros H. injection H as <-. constructor; [assumption|]. now apply IH.
Qed.
Lemma collect_possible {A B} (f : A -> result B) : forall l, (forall a, In a l -> exists b, f a = Ok b) -> exists r, collect f l = Ok r.
Proof.
  induction l as [|a l IH]; intros H; cbn [collect]; [eauto|]. destruct (H a) as (b & ->); [now left|]. cbn [rbind].
  destruct IH as (r & ->); [intros x I; apply H; now right|]. cbn [rbind]. eauto.
Qed.
Definition the_variables (kws : keywords) : list name := sort (filter is_variable (map fst kws)).
Lemma in_variables : forall kws v, In v (the_variables kws) <-> In v (map fst kws) /\ plain v.
Proof.
  intros kws v. unfold the_variables. rewrite <- is_variable_iff, <- filter_In.
  split; apply Permutation_in; [apply Permutation_sym|]; apply sort_perm.
Qed.
Definition missing (inplace : bool) (order : nat) (kws : keywords) : bool :=
  existsb (fun var => existsb (fun s => negb (eqb_name s (lit "_new")) && negb (given (var ++ s) kws)) (get_suffix inplace order)) (the_variables kws).
Lemma in_suffix : forall inplace order s, 1 <= order -> s <> lit "_new" ->
  In s (get_suffix inplace order) <-> exists j, j < count inplace order /\ s = older j.
Proof.
  intros [|] order s L N; cbn [count].
  - split; [intros [<-|[]]; exists 0; split; [lia|reflexivity]|]. intros (j & Lj & ->). left. now replace j with 0 by lia.
  - rewrite get_suffix_older by assumption. split.
    + intros [E|I]; [now elim N|]. apply in_map_iff in I. destruct I as (j & <- & I). apply in_seq in I. exists j. split; [lia|reflexivity].
    + intros (j & Lj & ->). right. apply in_map. apply in_seq. lia.
Qed.
Lemma older_not_new : forall j, older j <> lit "_new".
Proof. intros [|j]; [discriminate|]. destruct (older_old j) as (ds & -> & _). discriminate. Qed.
Lemma missing_iff : forall inplace order (kws : keywords), 1 <= order -> missing inplace order kws = true <->
  exists v j, In v (map fst kws) /\ plain v /\ j < count inplace order /\ ~ In (v ++ older j) (map fst kws).
Proof.
  intros inplace order kws L. unfold missing. rewrite existsb_exists. split.
  - intros (v & I & H). apply existsb_exists in H. destruct H as (s & Is & H). apply Bool.andb_true_iff in H. destruct H as [N G].
    apply Bool.negb_true_iff in N. apply Bool.negb_true_iff in G.
    assert (N' : s <> lit "_new") by (intros E; apply eqb_name_iff in E; congruence).
    apply (in_suffix _ L N') in Is. destruct Is as (j & Lj & ->). exists v, j. apply in_variables in I. destruct I as [I P].
    repeat split; try assumption; try apply P. intros K. apply given_key in K. congruence.
  - intros (v & j & I & P & Lj & N). exists v. split; [now apply in_variables|]. apply existsb_exists. exists (older j). split.
    + apply in_suffix; [assumption|apply older_not_new|]. now exists j.
    + apply Bool.andb_true_iff. split; apply Bool.negb_true_iff.
      * destruct (eqb_name (older j) (lit "_new")) eqn:E; [|reflexivity]. apply eqb_name_iff in E. now apply older_not_new in E.
      * destruct (given (v ++ older j) kws) eqn:E; [|reflexivity]. now apply given_key in E.
Qed.
Lemma construct_missing : forall inplace default (kws : keywords), construct inplace default kws =
  if missing inplace (set_order (map fst kws)) kws then Raise ValueError
  else info <- collect (variable_entry inplace (get_suffix inplace (set_order (map fst kws))) kws default) (the_variables kws) ;;
       Ok {| a_order := set_order (map fst kws); a_info := info; a_niterations := set_order (map fst kws) - 1 |}.
Proof. intros inplace default kws. unfold construct, set_variables. fold (the_variables kws). unfold missing. destruct (existsb _ _); reflexivity. Qed.
Lemma construct_ok : forall inplace default (kws : keywords) a, construct inplace default kws = Ok a ->
  a_order a = set_order (map fst kws) /\ a_niterations a = set_order (map fst kws) - 1 /\
  Forall2 (fun v e => variable_entry inplace (get_suffix inplace (set_order (map fst kws))) kws default v = Ok e) (the_variables kws) (a_info a).
Proof.
  intros inplace default kws a. rewrite construct_missing. destruct (missing _ _ kws); [discriminate|].
  destruct (collect _ _) as [info|] eqn:C; cbn [rbind]; [|discriminate]. intros H. injection H as <-. cbn. repeat split. now apply collect_ok.
Qed.
Lemma order_positive : forall kws : keywords, 1 <= set_order (map fst kws).
Proof. intros kws. apply (set_order_spec (map fst kws)). Qed.
Lemma order_is : forall inplace default (kws : keywords) a, construct inplace default kws = Ok a ->
  recursion_order (map fst kws) (a_order a) /\ a_niterations a = a_order a - 1.
Proof. intros inplace default kws a H. apply construct_ok in H. destruct H as (-> & -> & _). split; [apply set_order_spec|reflexivity]. Qed.
Lemma info_variables : forall inplace default (kws : keywords) a, construct inplace default kws = Ok a -> map e_variable (a_info a) = the_variables kws.
Proof.
  intros inplace default kws a H. apply construct_ok in H. destruct H as (_ & _ & F). induction F as [|v e l l' E F IH]; [reflexivity|].
  cbn [map]. rewrite IH. f_equal. revert E. unfold variable_entry. destruct (match lookup _ kws with Some _ => _ | None => _ end); cbn [rbind]; [|discriminate].
  destruct (initial_values _ _ _ kws); cbn [rbind]; [|discriminate]. destruct (existsb _ _); [discriminate|]. intros H. now injection H as <-.
Qed.
Lemma info_entries : forall inplace default (kws : keywords) a e, NoDup (map fst kws) -> construct inplace default kws = Ok a -> In e (a_info a) ->
  e_names e = map (fun s => e_variable e ++ s) (get_suffix inplace (a_order a)) /\
  values_given kws (count inplace (a_order a)) (e_variable e) (e_shape e) /\
  chosen_type kws (count inplace (a_order a)) default (e_variable e) (e_dtype e).
Proof.
  intros inplace default kws a e N H I. apply construct_ok in H. destruct H as (-> & _ & F). destruct (Forall2_right F I) as (v & _ & E).
  apply entry_ok in E; [|assumption|apply order_positive]. destruct E as (-> & A & B & C & _). exact (conj A (conj B C)).
Qed.
Lemma accepted_iff : forall inplace default (kws : keywords) n, NoDup (map fst kws) -> recursion_order (map fst kws) n ->
  (exists a, construct inplace default kws = Ok a) <->
  forall v, In v (map fst kws) -> plain v ->
    (exists sh, values_given kws (count inplace n) v sh) /\ dtype_possible kws (count inplace n) default v.
Proof.
  intros inplace default kws n N R. rewrite (order_unique R (set_order_spec (map fst kws))). split.
  - intros (a & H) v I P. apply construct_ok in H. destruct H as (_ & _ & F).
    destruct (Forall2_left F (proj2 (in_variables kws v) (conj I P))) as (e & _ & E).
    apply entry_ok in E; [|assumption|apply order_positive]. destruct E as (_ & _ & B & _ & D). split; [now exists (e_shape e)|assumption].
  - intros H. rewrite construct_missing. destruct (missing inplace (set_order (map fst kws)) kws) eqn:M.
    + exfalso. apply missing_iff in M; [|apply order_positive]. destruct M as (v & j & I & P & L & Nj). destruct (H v I P) as ((sh & G) & _).
      destruct (G j L) as (x & J & _). apply Nj. now apply (in_map fst) in J.
    + destruct (@collect_possible _ _ (variable_entry inplace (get_suffix inplace (set_order (map fst kws))) kws default) (the_variables kws)) as (r & ->).
      { intros v I. apply in_variables in I. destruct I as [I P]. destruct (H v I P) as ((sh & G) & D).
        exact (entry_possible N (order_positive kws) G D). }
      cbn [rbind]. eauto.
Qed.
Lemma missing_raises : forall inplace default (kws : keywords) n v j, recursion_order (map fst kws) n -> In v (map fst kws) -> plain v ->
  j < count inplace n -> ~ In (v ++ older j) (map fst kws) -> construct inplace default kws = Raise ValueError.
Proof.
  intros inplace default kws n v j R I P L Nj. rewrite (order_unique R (set_order_spec (map fst kws))) in L. rewrite construct_missing.
  assert (M : missing inplace (set_order (map fst kws)) kws = true) by (apply missing_iff; [apply order_positive|]; now exists v, j).
  now rewrite M.
Qed.

(** ** The names of the states *)
Lemma suffix_inj : forall order v v' s s', 1 <= order -> plain v -> plain v' -> In s (get_suffix false order) -> In s' (get_suffix false order) ->
  v ++ s = v' ++ s' -> v = v' /\ s = s'.
Proof.
  intros order v v' s s' L P P' I I' E. rewrite get_suffix_older in I, I' by assumption.
  assert (NO : forall j p p', p ++ lit "_new" = p' ++ older (S j) -> False).
  { intros j p p' H. destruct (older_old j) as (ds & Eo & D). rewrite Eo in H. apply (f_equal (@rev _)) in H. rewrite !rev_app_distr, <- !app_assoc in H.
    change (rev (lit "_new")) with ("w"%char :: lit "en_") in H. apply Forall_rev in D. destruct (rev ds) as [|c r].
    - change (rev (lit "_old")) with ("d"%char :: lit "lo_") in H. discriminate H.
    - cbn [app] in H. injection H as <- H. inversion D as [|? ? [_ K] ?]; subst. vm_compute in K. lia. }
  destruct I as [<-|I]; destruct I' as [<-|I'].
  - split; [|reflexivity]. now apply app_inv_tail in E.
  - exfalso. apply in_map_iff in I'. destruct I' as ([|j] & <- & _); [|exact (NO j _ _ E)].
    change (older 0) with (@nil ascii) in E. rewrite app_nil_r in E. apply (proj1 P'). now exists v.
  - exfalso. apply in_map_iff in I. destruct I as ([|j] & <- & _); [|exact (NO j _ _ (eq_sym E))].
    change (older 0) with (@nil ascii) in E. rewrite app_nil_r in E. apply (proj1 P). now exists v'.
  - apply in_map_iff in I. destruct I as (j & <- & _). apply in_map_iff in I'. destruct I' as (j' & <- & _).
    destruct j as [|j]; destruct j' as [|j'].
    + change (older 0) with (@nil ascii) in E. rewrite !app_nil_r in E. now split.
    + exfalso. change (older 0) with (@nil ascii) in E. rewrite app_nil_r in E. apply (@plain_older j' v P). now exists v'.
    + exfalso. change (older 0) with (@nil ascii) in E. rewrite app_nil_r in E. apply (@plain_older j v' P'). now exists v.
    + apply older_inj in E. destruct E as [-> ->]. now split.
Qed.
Lemma older_distinct : forall i j, older i = older j -> i = j.
Proof.
  intros [|i] [|j] H; [reflexivity| | |].
  - destruct (older_old j) as (ds & E & _). rewrite E in H. discriminate H.
  - destruct (older_old i) as (ds & E & _). rewrite E in H. discriminate H.
  - assert (K : [] ++ older (S i) = [] ++ older (S j)) by now rewrite H. apply older_inj in K. destruct K as [_ ->]. reflexivity.
Qed.
Lemma suffix_nodup : forall order, 1 <= order -> NoDup (get_suffix false order).
Proof.
  intros order L. rewrite get_suffix_older by assumption. constructor.
  - intros I. apply in_map_iff in I. destruct I as (j & E & _). now apply older_not_new in E.
  - apply Injective_map_NoDup; [|apply seq_NoDup]. intros i j. apply older_distinct.
Qed.
Lemma products_nodup : forall (suffix vs : list name), NoDup suffix -> NoDup vs ->
  (forall v v' s s', In v vs -> In v' vs -> In s suffix -> In s' suffix -> v ++ s = v' ++ s' -> v = v' /\ s = s') ->
  NoDup (concat (map (fun v => map (fun s => v ++ s) suffix) vs)).
Proof.
  intros suffix vs Ns. induction vs as [|v vs IH]; intros N H; [constructor|]. cbn [map concat]. inversion N as [|? ? Nv N']; subst.
  assert (A : forall l l' : list name, NoDup l -> NoDup l' -> (forall x, In x l -> ~ In x l') -> NoDup (l ++ l')).
  { induction l as [|x l IHl]; intros l' K K' D; [assumption|]. cbn [app]. inversion K as [|? ? Kx Kl]; subst. constructor.
    - intros I. apply in_app_iff in I. destruct I as [I|I]; [contradiction|]. apply (D x); [now left|assumption].
    - apply IHl; [assumption|assumption|]. intros y I. apply D. now right. }
  apply A.
  - apply Injective_map_NoDup; [|assumption]. intros s s' E. now apply app_inv_head in E.
  - apply IH; [assumption|]. intros v1 v2 s s' I1 I2. apply H; now right.
  - intros x I J. apply in_map_iff in I. destruct I as (s & <- & I). apply in_concat in J. destruct J as (l & J & K).
    apply in_map_iff in J. destruct J as (v' & <- & J). apply in_map_iff in K. destruct K as (s' & E & K).
    destruct (H v' v s' s) as [-> _]; try assumption; [now right|now left|contradiction].
Qed.
Lemma names_distinct : forall inplace default (kws : keywords) a, NoDup (map fst kws) -> construct inplace default kws = Ok a ->
  NoDup (concat (map e_names (a_info a))).
Proof.
  intros inplace default kws a N H.
  assert (E : map e_names (a_info a) = map (fun v => map (fun s => v ++ s) (get_suffix inplace (a_order a))) (the_variables kws)).
  { rewrite <- (info_variables H), map_map. apply map_ext_in. intros e I. now apply (info_entries N H). }
  rewrite E. assert (L : 1 <= a_order a) by apply (order_is H).
  assert (V : NoDup (the_variables kws)).
  { apply (Permutation_NoDup (sort_perm _)). now apply NoDup_filter. }
  apply products_nodup; [|assumption|].
  - destruct inplace; [repeat constructor; intros []|now apply suffix_nodup].
  - intros v v' s s' Iv Iv' I I' Q. apply in_variables in Iv. apply in_variables in Iv'. destruct inplace.
    + destruct I as [<-|[]]. destruct I' as [<-|[]]. rewrite !app_nil_r in Q. now split.
    + eapply suffix_inj; try eassumption; tauto.
Qed.

(** ** Keywords in the documented form *)
Lemma documented_order : forall (names vs : list name) n, 1 <= n -> vs <> [] -> (forall v, In v vs -> plain v) ->
  (forall v j, In v vs -> j < n -> In (v ++ older j) names) ->
  (forall k, In k names -> exists v, In v vs /\ ((exists j, j < n /\ k = v ++ older j) \/ k = v ++ lit "_new" \/ k = v ++ lit "_dtype")) ->
  recursion_order names n.
Proof.
  intros names vs n L Ne P G A. split; [assumption|]. split.
  - intros j Hj. destruct vs as [|v vs]; [now elim Ne|]. exists (v ++ older j). split; [apply G; [now left|lia]|now exists v].
  - intros k I H. destruct (A k I) as (v & Iv & Q). destruct n as [|n]; [lia|]. destruct Q as [([|j] & Lj & ->)|[->| ->]].
    + change (older 0) with (@nil ascii) in H. rewrite app_nil_r in H. now apply (plain_older (P v Iv)) in H.
    + assert (K : ends_in (older (S j)) (v ++ older (S j))) by now exists v. assert (j = n) by exact (ends_unique K H). lia.
    + destruct H as (p & H). destruct (older_old n) as (ds & E & D). rewrite E in H. apply (f_equal (@rev _)) in H. rewrite !rev_app_distr, <- !app_assoc in H.
      change (rev (lit "_new")) with ("w"%char :: lit "en_") in H. apply Forall_rev in D. destruct (rev ds) as [|c r].
      * change (rev (lit "_old")) with ("d"%char :: lit "lo_") in H. discriminate H.
      * cbn [app] in H. injection H as <- H. inversion D as [|? ? [_ K] ?]; subst. vm_compute in K. lia.
    + destruct H as (p & H). destruct (older_old n) as (ds & E & D). rewrite E in H. apply (f_equal (@rev _)) in H. rewrite !rev_app_distr, <- !app_assoc in H.
      change (rev (lit "_dtype")) with ("e"%char :: lit "pytd_") in H. apply Forall_rev in D. destruct (rev ds) as [|c r].
      * change (rev (lit "_old")) with ("d"%char :: lit "lo_") in H. discriminate H.
      * cbn [app] in H. injection H as <- H. inversion D as [|? ? [_ K] ?]; subst. vm_compute in K. lia.
Qed.
Lemma documented_plain : forall (names vs : list name) n, (forall v, In v vs -> plain v) ->
  (forall v j, In v vs -> j < n -> In (v ++ older j) names) -> 1 <= n ->
  (forall k, In k names -> exists v, In v vs /\ ((exists j, j < n /\ k = v ++ older j) \/ k = v ++ lit "_new" \/ k = v ++ lit "_dtype")) ->
  forall k, In k names /\ plain k <-> In k vs.
Proof.
  intros names vs n P G L A k. split.
  - intros [I Pk]. destruct (A k I) as (v & Iv & [([|j] & Lj & ->)|[->| ->]]).
    + change (older 0) with (@nil ascii). now rewrite app_nil_r.
    + exfalso. apply (plain_older Pk (j := j)). now exists v.
    + exfalso. apply (proj1 Pk). now exists v.
    + exfalso. apply (proj1 (proj2 Pk)). now exists v.
  - intros I. split; [|now apply P]. rewrite <- (app_nil_r k). now apply (G k 0).
Qed.

(** ** Examples *)
Definition single : dtype := {| d_kind := Float; d_bits := 32 |}.
Definition scalar : arg := Value [] Float.
Definition second_order : keywords :=
  [(lit "y_old", Value [3] Float); (lit "x", scalar); (lit "y", Value [3] Complex); (lit "x_old", scalar); (lit "x_dtype", Type_ {| d_kind := Integer; d_bits := 64 |})].
Lemma plain_bool : forall v, is_variable v = true -> plain v.
Proof. intros v. apply is_variable_iff. Qed.
Lemma recursion_order_by : forall (names : list name) n, set_order names = n -> recursion_order names n.
Proof. intros names n <-. apply set_order_spec. Qed.
Lemma nodup_by : forall names : list name, (if list_eq_dec (list_eq_dec ascii_dec) (nodup (list_eq_dec ascii_dec) names) names then true else false) = true ->
  NoDup names.
Proof. intros names. destruct (list_eq_dec (list_eq_dec ascii_dec) (nodup (list_eq_dec ascii_dec) names) names) as [E|]; [|discriminate]. intros _. rewrite <- E. apply NoDup_nodup. Qed.
