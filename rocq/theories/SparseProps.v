(** C47: operators made of sparse matrices *)
From Verif Require Import Base Algebra SparseModel SparseSpec SparseProofs.

Section Products.
Context {K : cring}.
Local Open Scope cr_scope.

(** Whatever the format: the output is the product of the dense matrix by the input, or is increased by it *)
Theorem C47_product : forall (m : matrix K) (x y : list K), wf m -> length y = fst (mshape m) ->
  (exists z, direct m Assignment x y = Ok z /\ length z = length y /\ forall i, i < length y -> nth i z 0 = times m x i) /\
  (exists z, direct m Iadd x y = Ok z /\ length z = length y /\ forall i, i < length y -> nth i z 0 = nth i y 0 + times m x i) /\
  direct m OtherOperation x y = Raise ValueError.
Proof.
  intros m x y W H. split; [|split; [apply matvec_times; auto|reflexivity]]. destruct (matvec_times m x (repeat 0 (length y)) W) as (z & E & L & Z); [rewrite repeat_length; auto|].
  exists z. rewrite repeat_length in L. split; [exact E|]. split; [exact L|]. intros i Hi. rewrite Z by (rewrite repeat_length; auto). rewrite nth_repeat. apply radd_0_l.
Qed.
(** Applied to the vectors of the canonical basis, it gives the columns of the dense matrix (todense) *)
Theorem C47_columns : forall (m : matrix K) (y : list K) j, wf m -> length y = fst (mshape m) -> j < snd (mshape m) ->
  direct m Assignment (map (fun k => if (k =? j)%nat then 1 else 0) (seq 0 (snd (mshape m)))) y = Ok (map (fun i => entry m i j) (seq 0 (fst (mshape m)))).
Proof.
  intros m y j W H Hj. destruct (C47_product m (map (fun k => if (k =? j)%nat then 1 else 0) (seq 0 (snd (mshape m)))) y W H) as ((z & -> & L & Z) & _). f_equal. apply list_ext; [rewrite map_length, seq_length; lia|].
  intros i Hi. rewrite Z by lia. rewrite (nth_indep _ 0 (entry m 0 j)) by (rewrite map_length, seq_length; lia). rewrite (map_nth (fun i => entry m i j)), seq_nth by lia. cbn [plus]. unfold times.
  assert (N : forall k, k < snd (mshape m) -> nth k (map (fun k => if (k =? j)%nat then 1 else 0 : K) (seq 0 (snd (mshape m)))) 0 = if (k =? j)%nat then 1 else 0).
  { intros k Hk. rewrite (nth_indep _ 0 ((fun k => if (k =? j)%nat then 1 else 0 : K) 0%nat)) by (rewrite map_length, seq_length; lia). rewrite (map_nth (fun k => if (k =? j)%nat then 1 else 0 : K)), seq_nth by lia. reflexivity. }
  rewrite (sum_single _ _ j); auto.
  - rewrite N by auto. rewrite Nat.eqb_refl. apply rmul_1_r.
  - intros k Hk Nk. rewrite N by auto. destruct (Nat.eqb_spec k j); [congruence|]. apply rmul_0_r.
Qed.
(** The format does not matter *)
Theorem C47_format : forall (m m' : matrix K) o x y, wf m -> wf m' -> mshape m = mshape m' -> (forall i j, i < fst (mshape m) -> j < snd (mshape m) -> entry m i j = entry m' i j) -> length y = fst (mshape m) ->
  direct m o x y = direct m' o x y.
Proof.
  intros m m' o x y W W' Sh E H. destruct (C47_product m x y W H) as ((z & Dz & Lz & Z) & (a & Da & La & A) & D). destruct (C47_product m' x y W' ltac:(congruence)) as ((z' & Dz' & Lz' & Z') & (a' & Da' & La' & A') & D').
  assert (T : forall i, i < length y -> times m x i = times m' x i). { intros i Hi. unfold times. rewrite <- Sh. apply sum_ext. intros j Hj. rewrite E by lia. reflexivity. }
  destruct o; rewrite ?Dz, ?Dz', ?Da, ?Da', ?D, ?D'; auto; f_equal; apply list_ext; try lia; intros i Hi; [rewrite Z, Z' by lia|rewrite A, A' by lia]; rewrite T by lia; reflexivity.
Qed.
(** The operator can be built from the matrices of all formats but LIL, with shapes of the right sizes *)
Theorem C47_construct : forall (m : option (matrix K)) si so,
  (forall s, sparse_operator m si so = Ok s -> m = Some (s_matrix s) /\ size (s_shapein s) = snd (mshape (s_matrix s)) /\ size (s_shapeout s) = fst (mshape (s_matrix s)) /\
    (forall t, si = Some t -> s_shapein s = t) /\ (forall t, so = Some t -> s_shapeout s = t)) /\
  (sparse_operator m si so = Raise TypeError <-> m = None \/ exists M N, m = Some (Lil M N)) /\
  (sparse_operator m si so = Raise ValueError <-> exists m', m = Some m' /\ (forall M N, m' <> Lil M N) /\ ((exists t, si = Some t /\ size t <> snd (mshape m')) \/ (exists t, so = Some t /\ size t <> fst (mshape m')))).
Proof.
  intros m si so. destruct m as [m|].
  2: { split; [discriminate|]. split; [split; auto|]. split; [discriminate|]. intros (m' & E & _). discriminate E. }
  assert (L : (exists M N, m = Lil M N) \/ forall M N, m <> Lil M N) by (destruct m; eauto; right; discriminate). destruct L as [(M & N & ->)|L].
  { split; [discriminate|]. split; [split; eauto|]. split; [discriminate|]. intros (m' & E & NL & _). injection E as <-. destruct (NL M N eq_refl). }
  assert (E : sparse_operator (Some m) si so = (a <- match si with Some s => if (size s =? snd (mshape m))%nat then Ok s else Raise ValueError | None => Ok [snd (mshape m)] end ;;
    b <- match so with Some s => if (size s =? fst (mshape m))%nat then Ok s else Raise ValueError | None => Ok [fst (mshape m)] end ;; Ok (Sparse m a b))) by (destruct m; try reflexivity; destruct (L M N eq_refl)).
  rewrite E. clear E. assert (S1 : forall n, size [n] = n) by (intros; cbn; lia).
  assert (NT : Some m = None \/ (exists M N, Some m = Some (Lil M N)) -> False) by (intros [X|(M & N & X)]; [discriminate X|injection X as X; exact (L M N X)]).
  assert (NI : forall t, si = Some t -> size t <> snd (mshape m) -> exists m', Some m = Some m' /\ (forall M N, m' <> Lil M N) /\ ((exists t, si = Some t /\ size t <> snd (mshape m')) \/ (exists t, so = Some t /\ size t <> fst (mshape m')))) by (intros; exists m; eauto 7).
  assert (NO : forall t, so = Some t -> size t <> fst (mshape m) -> exists m', Some m = Some m' /\ (forall M N, m' <> Lil M N) /\ ((exists t, si = Some t /\ size t <> snd (mshape m')) \/ (exists t, so = Some t /\ size t <> fst (mshape m')))) by (intros; exists m; eauto 7).
  destruct si as [a|], so as [b|]; try destruct (Nat.eqb_spec (size a) (snd (mshape m))) as [Ea|Ea]; try destruct (Nat.eqb_spec (size b) (fst (mshape m))) as [Eb|Eb]; cbn [rbind];
    (split; [first [discriminate|intros s X; injection X as <-; cbn [s_matrix s_shapein s_shapeout]; rewrite ?S1; repeat split; auto; intros t X; congruence]|]);
    (split; [split; [discriminate|intros X; destruct (NT X)]|]); split;
    first [discriminate|intros _; first [eapply NI; eauto; fail|eapply NO; eauto; fail]|intros _; reflexivity
          |intros (m' & X & _ & [(t & Et & Nt)|(t & Et & Nt)]); injection X as <-; try discriminate Et; injection Et as <-; contradiction].
Qed.
(** The transpose *)
Theorem C47_transpose : forall (m t : matrix K), wf m -> transpose m = Some t -> wf t /\ transposes m t /\ transpose t = Some m.
Proof.
  intros m t W E. destruct (transpose_ok m t W E) as (T & Wt). split; [exact Wt|]. split; [exact T|]. destruct m; try discriminate E; injection E as <-; cbn [transpose]; auto. rewrite map_map. cbn [fst snd]. f_equal. f_equal.
  transitivity (map (fun t => t) items); [|apply map_id]. apply map_ext. intros [[a b] c]. reflexivity.
Qed.
Theorem C47_adjoint : forall (s st : sparse K) (t : matrix K) x y y0 x0, wf (s_matrix s) -> wf t -> transposes (s_matrix s) t -> transposed_operator t s = Ok st ->
  length x = snd (mshape (s_matrix s)) -> length y = fst (mshape (s_matrix s)) -> length y0 = length y -> length x0 = length x ->
  s_shapein st = s_shapeout s /\ s_shapeout st = s_shapein s /\
  exists z w, direct (s_matrix s) Assignment x y0 = Ok z /\ direct (s_matrix st) Assignment y x0 = Ok w /\ ldot z y = ldot x w.
Proof.
  intros s st t x y y0 x0 W Wt T E Hx Hy Hy0 Hx0. unfold transposed_operator in E. assert (Q : exists s', sparse_operator (Some t) None None = Ok s' /\ s_matrix s' = t) by (destruct t; cbn [sparse_operator mshape rbind]; try (eexists; split; reflexivity); destruct Wt).
  destruct Q as (s' & Es & Em). rewrite Es in E. injection E as <-. split; [reflexivity|]. split; [reflexivity|]. cbn [s_matrix]. rewrite Em. destruct T as (Sh & T). assert (Sh' := f_equal fst Sh). cbn [fst] in Sh'.
  destruct (C47_product (s_matrix s) x y0 W ltac:(congruence)) as ((z & Dz & Lz & Z) & _). destruct (C47_product t y x0 Wt ltac:(congruence)) as ((w & Dw & Lw & Wz) & _). exists z, w. split; [exact Dz|]. split; [exact Dw|].
  apply (adjoint (s_matrix s) t x y z w); try assumption; [split; assumption|intros k Hk; apply Z; congruence|congruence|intros k Hk; apply Wz; congruence|congruence].
Qed.
(** The product by one is the operator itself *)
Theorem C47_one : forall (is_one : K -> bool) a (s : sparse K) fuel, is_one a = true -> scalar_times is_one (S fuel) a s = Some (Ok s).
Proof. intros is_one a s fuel E. cbn [scalar_times]. rewrite E. reflexivity. Qed.
End Products.

(** * Examples *)
(** The matrix of the documentation, linear.py 558-568, in all formats *)
Definition csr_ex : matrix Zring := Csr (K := Zring) 4 4 [0; 2; 3; 6; 8] [0; 2; 2; 0; 1; 2; 0; 3] [1; 2; 3; 4; 5; 6; 1; 1]%Z.
Definition csc_ex : matrix Zring := Csc (K := Zring) 4 4 [0; 3; 4; 7; 8] [0; 2; 3; 2; 0; 1; 2; 3] [1; 4; 1; 5; 2; 3; 6; 1]%Z.
Definition coo_ex : matrix Zring := Coo (K := Zring) 4 4 [0; 0; 1; 2; 2; 2; 3; 3; 2] [0; 2; 2; 0; 1; 2; 0; 3; 2] [1; 2; 3; 4; 5; 7; 1; 1; -1]%Z.
Definition bsr_ex : matrix Zring := Bsr (K := Zring) 4 4 2 2 [0; 2; 4] [0; 1; 0; 1] [1; 0; 0; 0; 2; 0; 3; 0; 4; 5; 1; 0; 6; 0; 0; 1]%Z.
Definition dia_ex : matrix Zring := Dia (K := Zring) 4 4 [0; 1; 2; -1; -2; -3]%Z 4 [[1; 0; 6; 1]; [9; 0; 3; 0]; [9; 9; 2; 0]; [0; 5; 0; 9]; [4; 0; 9; 9]; [1; 9; 9; 9]]%Z.
Definition dok_ex : matrix Zring := Dok (K := Zring) 4 4 [((0, 0), 1%Z); ((0, 2), 2%Z); ((2, 2), 6%Z); ((1, 2), 3%Z); ((2, 0), 4%Z); ((2, 1), 5%Z); ((3, 3), 1%Z); ((3, 0), 1%Z)].
Ltac bounds := repeat (apply Forall_cons; [cbn; lia|]); apply Forall_nil.
Example wf_all : wf csr_ex /\ wf csc_ex /\ wf coo_ex /\ wf bsr_ex /\ wf dia_ex /\ wf dok_ex.
Proof.
  split; [|split; [|split; [|split; [|split]]]]; cbn [wf csr_ex csc_ex coo_ex bsr_ex dia_ex dok_ex].
  - split; [reflexivity|]. split; [intros [|[|[|[|i]]]] H; cbn; lia|]. split; [cbn; lia|]. split; [reflexivity|bounds].
  - split; [reflexivity|]. split; [intros [|[|[|[|i]]]] H; cbn; lia|]. split; [cbn; lia|]. split; [reflexivity|bounds].
  - split; [reflexivity|]. split; [reflexivity|]. split; bounds.
  - exists 2, 2, 4. split; [lia|]. split; [lia|]. split; [reflexivity|]. split; [reflexivity|]. split; [reflexivity|]. split; [reflexivity|]. split; [intros [|[|i]] H; cbn; lia|]. split; [cbn; lia|]. split; [reflexivity|bounds].
  - split; [reflexivity|]. repeat (apply Forall_cons; [reflexivity|]). apply Forall_nil.
  - split; [|bounds]. cbn [map fst]. repeat (apply NoDup_cons; [cbn; intuition congruence|]). apply NoDup_nil.
Qed.
Example products : map (fun m : matrix Zring => direct m Iadd [1; 10; 100; 1000]%Z [5; 6; 7; 8]%Z) [csr_ex; csc_ex; coo_ex; bsr_ex; dia_ex; dok_ex] = repeat (Ok [206; 306; 661; 1009]%Z) 6.
Proof. vm_compute. reflexivity. Qed.
Example entries : forall m, In m [csr_ex; csc_ex; coo_ex; bsr_ex; dia_ex; dok_ex] -> map (fun i => map (entry m i) (seq 0 4)) (seq 0 4) = [[1; 0; 2; 0]; [0; 0; 3; 0]; [4; 5; 6; 0]; [1; 0; 0; 1]]%Z.
Proof. intros m H. repeat (destruct H as [<-|H]; [vm_compute; reflexivity|]). destruct H. Qed.
Example transposed_run : transpose csr_ex = Some (Csc (K := Zring) 4 4 [0; 2; 3; 6; 8] [0; 2; 2; 0; 1; 2; 0; 3] [1; 2; 3; 4; 5; 6; 1; 1]%Z) /\
  (forall t, transpose csr_ex = Some t -> direct t Assignment [1; 0; 0; 0]%Z [7; 7; 7; 7]%Z = Ok [1; 0; 2; 0]%Z).
Proof. split; [reflexivity|]. intros t E. injection E as <-. reflexivity. Qed.
Example construct_run : sparse_operator (Some csr_ex) (Some [2; 2]) None = Ok (Sparse csr_ex [2; 2] [4]) /\ sparse_operator (Some csr_ex) None (Some [3]) = Raise ValueError /\ sparse_operator (Some (Lil (K := Zring) 2 2)) None None = Raise TypeError.
Proof. repeat split. Qed.
(** A rectangular matrix, a block of 1 x 2 elements and a diagonal array that is longer than the matrix is wide *)
Example rectangular : direct (Dia (K := Zring) 2 3 [1; -1; 5]%Z 5 [[0; 4; 5; 0; 0]; [6; 7; 8; 0; 0]; [1; 1; 1; 1; 1]]%Z) Assignment [1; 10; 100]%Z [0; 0]%Z = Ok [40; 506]%Z /\
  direct (Bsr (K := Zring) 1 4 1 2 [0; 1] [1] [3; 4]%Z) Assignment [1; 10; 100; 1000]%Z [9]%Z = Ok [4300]%Z.
Proof. split; reflexivity. Qed.

(** * What does not hold *)
(** The product of a number other than zero and one and an operator made of a sparse matrix cannot be formed: the rule that absorbs the number multiplies the matrix by the operator of the number, which is the same product again, without end (RecursionError).
    Thus 2 * S, S * 2, -S and A - S raise an exception. *)
Theorem C47_scalar_refuted : (~ forall (a : Z) (s : sparse Zring), wf (s_matrix s) -> a <> 0%Z -> exists fuel r, scalar_times (K := Zring) (Z.eqb 1) fuel a s = Some r) /\
  forall (a : Z) (s : sparse Zring) fuel, wf (s_matrix s) -> a <> 0%Z -> a <> 1%Z -> scalar_times (K := Zring) (Z.eqb 1) fuel a s = None.
Proof.
  assert (N : forall (a : Z) (s : sparse Zring) fuel, wf (s_matrix s) -> a <> 0%Z -> a <> 1%Z -> scalar_times (K := Zring) (Z.eqb 1) fuel a s = None).
  { intros a [m si so] fuel W _ A. cbn [s_matrix] in W. apply scalar_none; [apply Z.eqb_neq; auto|]. intros M N ->. destruct W. }
  split; [|exact N]. intros H. destruct (H (-1)%Z (Sparse csr_ex [4] [4])) as (fuel & r & E); [apply wf_all|lia|]. rewrite N in E; [discriminate E|apply wf_all|lia|lia].
Qed.

Print Assumptions C47_product. Print Assumptions C47_columns. Print Assumptions C47_format. Print Assumptions C47_construct. Print Assumptions C47_transpose. Print Assumptions C47_adjoint. Print Assumptions C47_one. Print Assumptions C47_scalar_refuted.
