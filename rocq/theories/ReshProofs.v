(** Proofs about ReshapeOperator *)
From Verif Require Import Base ReshModel ReshSpec.
From Coq Require Import Lia FinFun.
Set Implicit Arguments. Unset Strict Implicit.
Local Open Scope Z_scope.

Lemma map_flat_map (A B C : Type) (f : B -> C) (g : A -> list B) (l : list A) : map f (flat_map g l) = flat_map (fun x => map f (g x)) l.
Proof. induction l as [|x l IH]; cbn [flat_map map]; [reflexivity|]. now rewrite map_app, IH. Qed.
Lemma flat_map_ext' (A B : Type) (f g : A -> list B) (l : list A) : (forall x, f x = g x) -> flat_map f l = flat_map g l.
Proof. intros H. induction l as [|x l IH]; cbn [flat_map]; [reflexivity|]. now rewrite H, IH. Qed.

Lemma addresses_spec (dims : list (nat * Z)) : forall offset,
  addresses offset dims = map (address offset (map snd dims)) (indices (map fst dims)).
Proof.
  induction dims as [|[n s] dims IH]; intros offset; [reflexivity|].
  cbn [addresses map fst snd indices]. rewrite map_flat_map. apply flat_map_ext'. intros i. rewrite IH, map_map.
  apply map_ext. intros l. reflexivity.
Qed.
Lemma elements_spec (V : Type) (m : Z -> V) (a : array) : elements m a = in_order m (a_offset a) (a_shape a) (map snd (a_dims a)).
Proof. unfold elements, in_order, a_shape. now rewrite addresses_spec, map_map. Qed.
Lemma addresses_belongs (a : array) (p : Z) :
  In p (addresses (a_offset a) (a_dims a)) <-> belongs p (a_offset a) (a_shape a) (map snd (a_dims a)).
Proof.
  rewrite addresses_spec, in_map_iff. unfold belongs, a_shape.
  split; intros (i & A & B); exists i; split; auto.
Qed.


(** ** Runs of addresses *)
Definition run (o : Z) (k : nat) : list Z := map (fun r => o + Z.of_nat r) (seq 0 k).
Lemma run_app (o : Z) (a b : nat) : run o (a + b) = run o a ++ run (o + Z.of_nat a) b.
Proof.
  unfold run. rewrite seq_app, map_app. f_equal. cbn [Nat.add]. revert o. induction a as [|a IH]; intros o.
  - apply map_ext. intros r. lia.
  - rewrite <- seq_shift, map_map. rewrite <- (map_ext (fun r => (o + 1) + Z.of_nat r)) by (intros r; lia).
    rewrite IH. apply map_ext. intros r. lia.
Qed.
Lemma run_blocks (o : Z) (k n : nat) : flat_map (fun i => run (o + Z.of_nat i * Z.of_nat k) k) (seq 0 n) = run o (n * k).
Proof.
  induction n as [|n IH]; [reflexivity|].
  rewrite seq_S, flat_map_app, IH. cbn [flat_map Nat.add]. rewrite app_nil_r.
  replace (S n * k)%nat with (n * k + k)%nat by lia. rewrite run_app. do 2 f_equal. lia.
Qed.
Lemma run_length (o : Z) (k : nat) : length (run o k) = k.
Proof. unfold run. now rewrite map_length, seq_length. Qed.
Lemma run_NoDup (o : Z) (k : nat) : NoDup (run o k).
Proof. unfold run. apply Injective_map_NoDup; [intros a b; lia|apply seq_NoDup]. Qed.

Lemma addresses_length (dims : list (nat * Z)) : forall o, length (addresses o dims) = size (map fst dims).
Proof.
  induction dims as [|[n s] dims IH]; intros o; [reflexivity|].
  cbn [addresses map fst size fold_right]. fold (size (map fst dims)).
  assert (G : forall l, length (flat_map (fun i => addresses (o + Z.of_nat i * s) dims) l) = (length l * size (map fst dims))%nat).
  { induction l as [|i l IHl]; cbn [flat_map length]; [reflexivity|]. rewrite app_length, IH, IHl. lia. }
  now rewrite G, seq_length.
Qed.
Lemma packed_run (dims : list (nat * Z)) : packed dims = true -> forall o, addresses o dims = run o (size (map fst dims)).
Proof.
  induction dims as [|[n s] dims IH]; intros H o.
  - cbn. f_equal. lia.
  - cbn [packed] in H. apply andb_true_iff in H. destruct H as [H1 H2]. cbn [addresses map fst size fold_right].
    fold (size (map fst dims)). apply orb_true_iff in H2. destruct H2 as [H2|H2].
    + apply Nat.eqb_eq in H2. subst n. cbn [seq flat_map]. rewrite app_nil_r, (IH H1), Nat.mul_1_l. f_equal. lia.
    + apply Z.eqb_eq in H2. subst s. rewrite <- run_blocks. apply flat_map_ext'. intros i. apply (IH H1).
Qed.
Lemma contiguous_run (a : array) : contiguous a = true -> addresses (a_offset a) (a_dims a) = run (a_offset a) (size (a_shape a)).
Proof.
  unfold contiguous. intros H. apply orb_true_iff in H. destruct H as [H|H].
  - apply Nat.eqb_eq in H. rewrite H. apply length_zero_iff_nil. now rewrite addresses_length.
  - now apply packed_run.
Qed.

(** ** The flag of numpy is exact *)
Lemma indices_nil (shape : list nat) : size shape = 0%nat -> indices shape = [].
Proof.
  induction shape as [|n shape IH]; [discriminate|]. cbn [size fold_right indices]. intros H. apply Nat.eq_mul_0 in H.
  destruct H as [->|H]; [reflexivity|]. rewrite (IH H). cbn [map]. induction (seq 0 n); cbn [flat_map]; auto.
Qed.
Lemma indices_cons (n i : nat) (shape index : list nat) : In (i :: index) (indices (n :: shape)) <-> (i < n)%nat /\ In index (indices shape).
Proof.
  cbn [indices]. rewrite in_flat_map. split.
  - intros (j & A & B). apply in_map_iff in B. destruct B as (x & B & C). injection B as -> ->. apply in_seq in A. split; [lia|exact C].
  - intros [A B]. exists i. split; [apply in_seq; lia|]. now apply in_map.
Qed.
Lemma indices_inv (n : nat) (shape l : list nat) : In l (indices (n :: shape)) -> exists i index, l = i :: index.
Proof. cbn [indices]. rewrite in_flat_map. intros (j & _ & B). apply in_map_iff in B. destruct B as (x & <- & _). eauto. Qed.
Lemma zeros_in (shape : list nat) : size shape <> 0%nat -> In (map (fun _ => 0%nat) shape) (indices shape).
Proof.
  induction shape as [|n shape IH]; [now left|]. cbn [size fold_right map]. fold (size shape). intros H. apply indices_cons.
  split; [|apply IH]; nia.
Qed.
Lemma zeros_address (strides : list Z) : forall (shape : list nat) o, address o strides (map (fun _ => 0%nat) shape) = o.
Proof. induction strides as [|s strides IH]; intros [|n shape] o; try reflexivity. cbn [map address]. rewrite IH. lia. Qed.
Lemma zeros_rank (shape : list nat) : rank shape (map (fun _ => 0%nat) shape) = 0%nat.
Proof. induction shape as [|n shape IH]; [reflexivity|]. cbn [map rank]. rewrite IH. lia. Qed.
Lemma address_shift (strides : list Z) : forall index o d, address (o + d) strides index = address o strides index + d.
Proof.
  induction strides as [|s strides IH]; intros [|i index] o d; try reflexivity. cbn [address].
  rewrite <- (IH index). f_equal. lia.
Qed.
Lemma packed_spec (dims : list (nat * Z)) : size (map fst dims) <> 0%nat -> forall o,
  packed dims = true <-> packed_array o (map fst dims) (map snd dims).
Proof.
  induction dims as [|[n s] dims IH]; intros H o.
  - split; [|reflexivity]. intros _ l [<-|[]]. cbn. lia.
  - cbn [map fst snd size fold_right] in *. fold (size (map fst dims)) in H. cbn [packed].
    assert (H' : size (map fst dims) <> 0%nat) by nia. specialize (IH H').
    assert (Hn : n <> 0%nat) by nia. split.
    + intros P. apply andb_true_iff in P. destruct P as [P1 P2]. intros l Hl.
      destruct (indices_inv Hl) as (i & index & ->). apply indices_cons in Hl. destruct Hl as [L1 L2].
      cbn [address rank]. rewrite (proj1 (IH (o + Z.of_nat i * s)) P1 index L2).
      fold (size (map fst dims)). apply orb_true_iff in P2. destruct P2 as [P2|P2].
      * apply Nat.eqb_eq in P2. assert (i = 0%nat) by lia. subst i. lia.
      * apply Z.eqb_eq in P2. subst s. lia.
    + intros P. apply andb_true_iff. split.
      * apply (IH o). intros index L. specialize (P (0%nat :: index)). cbn [address rank] in P.
        replace (o + Z.of_nat 0 * s) with o in P by lia. apply P. apply indices_cons. split; [lia|exact L].
      * apply orb_true_iff. destruct (Nat.eq_dec n 1) as [->|N1]; [now left|]. right. apply Z.eqb_eq.
        specialize (P (1%nat :: map (fun _ => 0%nat) (map fst dims))). cbn [address rank] in P.
        rewrite zeros_address, zeros_rank in P. fold (size (map fst dims)) in P.
        assert (Q : In (1%nat :: map (fun _ => 0%nat) (map fst dims)) (indices (n :: map fst dims)))
          by (apply indices_cons; split; [lia|now apply zeros_in]).
        specialize (P Q). lia.
Qed.
Lemma contiguous_spec (a : array) : contiguous a = true <-> packed_array (a_offset a) (a_shape a) (map snd (a_dims a)).
Proof.
  unfold contiguous, a_shape. destruct (Nat.eq_dec (size (map fst (a_dims a))) 0) as [E|E].
  - rewrite E. cbn [Nat.eqb orb]. split; [|reflexivity]. intros _ l. rewrite (indices_nil E). intros [].
  - rewrite (proj2 (Nat.eqb_neq _ _) E). cbn [orb]. now apply packed_spec.
Qed.

(** ** Assignments *)
Lemma assign_out (V : Type) (l : list Z) : forall (m : Z -> V) v p, ~ In p l -> assign m l v p = m p.
Proof.
  induction l as [|q l IH]; intros m v p H; [reflexivity|]. destruct v as [|x v]; [reflexivity|]. cbn [assign].
  rewrite IH by (intros K; apply H; now right). destruct (Z.eqb_spec p q) as [->|]; [|reflexivity]. destruct H. now left.
Qed.
Lemma assign_in (V : Type) (l : list Z) : forall (m : Z -> V) v, length l = length v -> NoDup l -> map (assign m l v) l = v.
Proof.
  induction l as [|q l IH]; intros m v L N; destruct v as [|x v]; try discriminate L; [reflexivity|].
  inversion N; subst. cbn [assign map]. f_equal.
  - rewrite assign_out by assumption. now rewrite Z.eqb_refl.
  - apply IH; [now injection L|assumption].
Qed.

Lemma shape_eqb_true (s t : list nat) : shape_eqb s t = true <-> s = t.
Proof. unfold shape_eqb. destruct (list_eq_dec Nat.eq_dec s t); split; congruence. Qed.
Lemma shape_eqb_refl (s : list nat) : shape_eqb s s = true.
Proof. now apply shape_eqb_true. Qed.

Lemma direct_in (V : Type) (m : Z -> V) (x out : array) : size (a_shape x) = size (a_shape out) -> contiguous out = true ->
  elements (direct m x out) out = elements m x /\ forall p, ~ In p (addresses (a_offset out) (a_dims out)) -> direct m x out p = m p.
Proof.
  intros S C. unfold direct, assign_ravel. rewrite C. fold (run (a_offset out) (size (a_shape out))).
  rewrite <- (contiguous_run C). split.
  - unfold elements at 1. apply assign_in.
    + unfold elements. rewrite map_length, !addresses_length. symmetry. exact S.
    + rewrite (contiguous_run C). apply run_NoDup.
  - intros p. apply assign_out.
Qed.
Lemma identity_direct_in (V : Type) (m : Z -> V) (x out : array) : size (a_shape x) = size (a_shape out) ->
  NoDup (addresses (a_offset out) (a_dims out)) ->
  elements (identity_direct m x out) out = elements m x /\
  forall p, ~ In p (addresses (a_offset out) (a_dims out)) -> identity_direct m x out p = m p.
Proof.
  intros S N. unfold identity_direct. split.
  - unfold elements at 1. apply assign_in; [|exact N]. unfold elements. rewrite map_length, !addresses_length. symmetry. exact S.
  - intros p. apply assign_out.
Qed.

Lemma reshape_ok (si so : shape_arg) : size (tointtuple si) = size (tointtuple so) -> exists o,
  reshape (Some si) (Some so) = Ok o /\ shapein o = tointtuple si /\ shapeout o = tointtuple so.
Proof.
  intros H. cbn [reshape]. rewrite (proj2 (Nat.eqb_eq _ _) H). cbn [negb].
  destruct (shape_eqb (tointtuple si) (tointtuple so)) eqn:E; eexists; (split; [reflexivity|]); split; try reflexivity.
  now apply shape_eqb_true.
Qed.
(** The operators that the constructor gives *)
Definition well_formed (o : operator) : Prop :=
  match o with Reshape si so => size si = size so /\ si <> so | Identity _ => True end.
Lemma reshape_well_formed (si so : option shape_arg) (o : operator) : reshape si so = Ok o -> well_formed o.
Proof.
  destruct si as [si|], so as [so|]; try discriminate. cbn [reshape].
  destruct (Nat.eqb_spec (size (tointtuple si)) (size (tointtuple so))) as [E|]; [|discriminate]. cbn [negb].
  destruct (shape_eqb (tointtuple si) (tointtuple so)) eqn:F; intros H; injection H as <-; [exact I|]. split; [exact E|].
  intros K. apply shape_eqb_true in K. congruence.
Qed.
Lemma well_formed_size (o : operator) : well_formed o -> size (shapein o) = size (shapeout o).
Proof. destruct o; cbn; [intros [? _]; assumption|reflexivity]. Qed.
Lemma well_formed_unique (o1 o2 : operator) : well_formed o1 -> well_formed o2 -> shapein o1 = shapein o2 -> shapeout o1 = shapeout o2 -> o1 = o2.
Proof.
  destruct o1, o2; cbn; intros W1 W2 A B; subst; try reflexivity.
  - destruct W1 as [_ W1]. now destruct W1.
  - destruct W2 as [_ W2]. now destruct W2.
Qed.

Lemma call_ok (V : Type) (o : operator) (m : Z -> V) (x out : array) : well_formed o -> a_shape x = shapein o -> a_shape out = shapeout o ->
  packed_array (a_offset out) (a_shape out) (map snd (a_dims out)) ->
  exists m', call o m x out = Ok m' /\ elements m' out = elements m x /\
    forall p, ~ In p (addresses (a_offset out) (a_dims out)) -> m' p = m p.
Proof.
  intros W A B P. apply contiguous_spec in P. unfold call. rewrite A, B, !shape_eqb_refl. cbn [negb].
  assert (S : size (a_shape x) = size (a_shape out)) by (rewrite A, B; now apply well_formed_size).
  destruct o as [si so|s]; eexists; (split; [reflexivity|]).
  - now apply direct_in.
  - apply identity_direct_in; [exact S|]. rewrite (contiguous_run P). apply run_NoDup.
Qed.
Lemma call_shapes (V : Type) (o : operator) (m m' : Z -> V) (x out : array) : call o m x out = Ok m' ->
  a_shape x = shapein o /\ a_shape out = shapeout o.
Proof.
  unfold call. destruct (shape_eqb (a_shape x) (shapein o)) eqn:E; [|discriminate]. cbn [negb].
  destruct (shape_eqb (a_shape out) (shapeout o)) eqn:F; [|discriminate]. intros _.
  split; now apply shape_eqb_true.
Qed.
Lemma call_strided (V : Type) (o : operator) (m : Z -> V) (x out : array) : well_formed o -> shapein o <> shapeout o ->
  a_shape x = shapein o -> a_shape out = shapeout o ->
  ~ packed_array (a_offset out) (a_shape out) (map snd (a_dims out)) -> call o m x out = Ok m.
Proof.
  intros W D A B P. unfold call. rewrite A, B, !shape_eqb_refl. cbn [negb]. destruct o as [si so|s]; [|now destruct D].
  unfold direct, assign_ravel. destruct (contiguous out) eqn:C; [|reflexivity]. destruct P. now apply contiguous_spec.
Qed.

Lemma NoDup_app' (A : Type) (l k : list A) : NoDup l -> NoDup k -> (forall x, In x l -> ~ In x k) -> NoDup (l ++ k).
Proof.
  induction l as [|x l IH]; intros N K D; [exact K|]. inversion N; subst. cbn [app]. constructor.
  - rewrite in_app_iff. intros [H|H]; [contradiction|]. apply (D x); [now left|exact H].
  - apply IH; [assumption|exact K|]. intros y Y. apply D. now right.
Qed.
Lemma indices_NoDup (shape : list nat) : NoDup (indices shape).
Proof.
  induction shape as [|n shape IH]; [repeat constructor; intros []|]. cbn [indices]. generalize 0%nat. induction n as [|n IHn]; intros k.
  - constructor.
  - cbn [seq flat_map]. apply NoDup_app'; [|apply IHn|].
    + apply Injective_map_NoDup; [intros a b E; now injection E|exact IH].
    + intros l H K. apply in_map_iff in H. destruct H as (t & <- & _). apply in_flat_map in K. destruct K as (i & K1 & K2).
      apply in_map_iff in K2. destruct K2 as (u & K2 & _). injection K2 as -> _. apply in_seq in K1. lia.
Qed.
Lemma NoDup_map_on (A B : Type) (f : A -> B) (l : list A) : NoDup l -> (forall x y, In x l -> In y l -> f x = f y -> x = y) -> NoDup (map f l).
Proof.
  induction l as [|x l IH]; intros N H; [constructor|]. inversion N; subst. cbn [map]. constructor.
  - intros K. apply in_map_iff in K. destruct K as (y & E & Y). assert (y = x) by (apply H; [now right|now left|exact E]). now subst y.
  - apply IH; [assumption|]. intros a b A1 B1. apply H; now right.
Qed.
Lemma call_identity (V : Type) (o : operator) (m : Z -> V) (x out : array) : well_formed o -> shapein o = shapeout o ->
  a_shape x = shapein o -> a_shape out = shapeout o ->
  (forall i j, In i (indices (a_shape out)) -> In j (indices (a_shape out)) ->
     address (a_offset out) (map snd (a_dims out)) i = address (a_offset out) (map snd (a_dims out)) j -> i = j) ->
  exists m', call o m x out = Ok m' /\ elements m' out = elements m x /\
    forall p, ~ In p (addresses (a_offset out) (a_dims out)) -> m' p = m p.
Proof.
  intros W D A B P. unfold call. rewrite A, B, !shape_eqb_refl. cbn [negb].
  destruct o as [si so|s]; [destruct W as [_ W]; now destruct W|]. eexists; split; [reflexivity|].
  apply identity_direct_in.
  - rewrite A, B. reflexivity.
  - rewrite addresses_spec. apply NoDup_map_on; [apply indices_NoDup|exact P].
Qed.

(** ** New arrays *)
Lemma c_dims_shape (shape : list nat) : map fst (c_dims shape) = shape.
Proof. induction shape as [|n s IH]; cbn [c_dims map fst]; [reflexivity|now rewrite IH]. Qed.
Lemma c_dims_packed (shape : list nat) : packed (c_dims shape) = true.
Proof. induction shape as [|n s IH]; cbn [c_dims packed]; [reflexivity|]. now rewrite IH, c_dims_shape, Z.eqb_refl, orb_true_r. Qed.
Lemma new_array_packed (p : Z) (shape : list nat) :
  packed_array (a_offset (new_array p shape)) (a_shape (new_array p shape)) (map snd (a_dims (new_array p shape))).
Proof. apply contiguous_spec. unfold contiguous, new_array. cbn [a_dims]. now rewrite c_dims_packed, orb_true_r. Qed.
Lemma new_array_shape (p : Z) (shape : list nat) : a_shape (new_array p shape) = shape.
Proof. apply c_dims_shape. Qed.

(** ** Compositions and transposes *)
Lemma compose_ok (o1 o2 : operator) : well_formed o1 -> well_formed o2 -> shapein o1 = shapeout o2 -> exists o,
  compose o1 o2 = Ok o /\ well_formed o /\ shapein o = shapein o2 /\ shapeout o = shapeout o1.
Proof.
  intros W1 W2 E. unfold compose. rewrite E, shape_eqb_refl. cbn [negb].
  destruct o1 as [si1 so1|s1]; [destruct o2 as [si2 so2|s2]|].
  - cbn [shapein shapeout] in *. destruct W1 as [W1 _], W2 as [W2 _].
    destruct (@reshape_ok (Tuple si2) (Tuple so1)) as (o & R & A & B); [cbn [tointtuple]; congruence|].
    exists o. split; [exact R|]. split; [apply (reshape_well_formed R)|]. split; [exact A|exact B].
  - eexists; split; [reflexivity|]. split; [exact W1|]. cbn [shapein shapeout] in *. auto.
  - eexists; split; [reflexivity|]. split; [exact W2|]. cbn [shapein shapeout] in *. auto.
Qed.
Lemma transpose_ok (o : operator) : well_formed o -> exists t, transpose o = Ok t /\ well_formed t /\ shapein t = shapeout o /\ shapeout t = shapein o.
Proof.
  destruct o as [si so|s]; cbn [transpose well_formed shapein shapeout].
  - intros [W _]. destruct (@reshape_ok (Tuple so) (Tuple si)) as (o & R & A & B); [now symmetry|].
    exists o. split; [exact R|]. split; [apply (reshape_well_formed R)|]. split; [exact A|exact B].
  - intros _. eexists; split; [reflexivity|]. repeat split.
Qed.
Lemma compose_errors (o1 o2 : operator) : shapein o1 <> shapeout o2 -> compose o1 o2 = Raise ValueError.
Proof.
  intros D. unfold compose. destruct (shape_eqb (shapein o1) (shapeout o2)) eqn:E; [|reflexivity]. destruct D. now apply shape_eqb_true.
Qed.

(** The columns of a matrix of more than one row and column are not contiguous. *)
Lemma column_strided (p : Z) (n k j : nat) : (2 <= n)%nat -> (2 <= k)%nat -> contiguous (column (new_array p [n; k]) j) = false.
Proof.
  intros N K. unfold column, new_array, contiguous, a_shape. cbn [c_dims a_dims a_offset map fst size fold_right packed].
  rewrite (proj2 (Nat.eqb_neq _ _)) by nia. rewrite (proj2 (Nat.eqb_neq n 1)) by lia. cbn [orb andb].
  apply andb_false_iff. right. apply Z.eqb_neq. lia.
Qed.

(** Examples: a 3 x 2 array whose columns are those of even number of a 3 x 4 array *)
Definition every_other : array := Arr 100 [(3%nat, 4); (2%nat, 2)].
Definition squares : Z -> Z := fun p => p * p.

Lemma indices_length (shape : list nat) : length (indices shape) = size shape.
Proof.
  induction shape as [|n shape IH]; [reflexivity|]. cbn [indices size fold_right]. fold (size shape). rewrite <- IH.
  assert (G : forall l, length (flat_map (fun i => map (cons i) (indices shape)) l) = (length l * length (indices shape))%nat).
  { induction l as [|i l IHl]; cbn [flat_map length]; [reflexivity|]. rewrite app_length, map_length, IHl. lia. }
  now rewrite G, seq_length.
Qed.
Lemma reshape_sizes (si so : option shape_arg) (o : operator) : reshape si so = Ok o ->
  exists s t, si = Some s /\ so = Some t /\ length (indices (tointtuple s)) = length (indices (tointtuple t)).
Proof.
  destruct si as [si|], so as [so|]; try discriminate. cbn [reshape]. intros H. exists si, so. do 2 (split; [reflexivity|]).
  rewrite !indices_length. destruct (Nat.eqb_spec (size (tointtuple si)) (size (tointtuple so))) as [E|]; [exact E|discriminate].
Qed.
Lemma reshape_error (si so : option shape_arg) (e : exn) : reshape si so = Raise e -> e = ValueError.
Proof.
  destruct si as [si|], so as [so|]; try (intros H; now injection H). cbn [reshape].
  destruct (negb _); [intros H; now injection H|]. destruct (shape_eqb _ _); discriminate.
Qed.
Lemma reshape_column (n : nat) : reshape (Some (Int n)) (Some (Tuple [n; 1%nat])) = Ok (Reshape [n] [n; 1%nat]).
Proof.
  cbn [reshape tointtuple]. rewrite (proj2 (Nat.eqb_eq (size [n]) (size [n; 1%nat]))) by (cbn [size fold_right]; lia). cbn [negb].
  destruct (shape_eqb [n] [n; 1%nat]) eqn:E; [|reflexivity]. apply shape_eqb_true in E. discriminate E.
Qed.
Lemma compose_inverse (o t : operator) : well_formed o -> well_formed t -> shapein t = shapeout o -> shapeout t = shapein o ->
  compose t o = Ok (Identity (shapein o)).
Proof.
  intros W1 W2 E F. destruct (compose_ok W2 W1 E) as (c & C & W & A & B). rewrite C. f_equal.
  apply well_formed_unique; [exact W|exact I|exact A|]. cbn [shapeout]. congruence.
Qed.
Lemma strided_counterexample :
  ~ (forall si so o (m : Z -> Z) x out, reshape si so = Ok o -> a_shape x = shapein o -> a_shape out = shapeout o ->
     (forall i j, In i (indices (a_shape out)) -> In j (indices (a_shape out)) ->
        address (a_offset out) (map snd (a_dims out)) i = address (a_offset out) (map snd (a_dims out)) j -> i = j) ->
     exists m', call o m x out = Ok m' /\
     in_order m' (a_offset out) (a_shape out) (map snd (a_dims out)) = in_order m (a_offset x) (a_shape x) (map snd (a_dims x))).
Proof.
  intros H.
  destruct (H (Some (Int 6)) (Some (Tuple [3; 2]%nat)) (Reshape [6%nat] [3; 2]%nat) squares (new_array 0 [6%nat]) every_other)
    as (m' & C & E); try reflexivity.
  - intros i j A B. cbn in A, B.
    repeat (destruct A as [<-|A]; [repeat (destruct B as [<-|B]; [cbn; intros K; solve [reflexivity|discriminate K]|]); destruct B|]).
    destruct A.
  - vm_compute in C. injection C as <-. vm_compute in E. discriminate E.
Qed.
