(** C16-C19: block operators. *)
From Verif Require Import Base Algebra SeqModel BlockModel BlockSpec BlockProofs BlockRules.

(** ** C16 *)

(** The slices of a partition select every index of the array exactly once. *)
Theorem C16_tile : forall ax p shape a, partitioned ax p shape a ->
  Permutation (indices shape) (flat_map (selected shape) (get_slices p ax)).
Proof. exact tile. Qed.

(** The k-th slice selects the elements whose index along the axis starts after the previous sizes. *)
Theorem C16_pieces : forall A ax p a (x : array A), partitioned ax p (ashape x) a ->
  exists ys, rmap (getitem x) (get_slices p ax) = Ok ys /\ length ys = length p
    /\ forall k d, k < length p -> aeq (nth k ys d) (piece ax a p k x).
Proof. intros A ax p a x H. apply reads, H. Qed.

(** Filling each slice with an array of the right shape defines the whole array, whatever it contained. *)
Theorem C16_fill : forall A ax p a (ys : list (array A)) (out : array A), partitioned ax p (ashape out) a -> length ys = length p ->
  (forall k d, k < length p -> ashape (nth k ys d) = ashape (piece ax a p k out)) ->
  exists r, write_loop (get_slices p ax) ys out = Ok r /\ ashape r = ashape out
    /\ forall k d, k < length p -> aeq (piece ax a p k r) (nth k ys d).
Proof. intros A ax p a ys out. apply writes. Qed.
Theorem C16_determined : forall A ax p a (x y : array A), partitioned ax p (ashape x) a -> ashape x = ashape y ->
  (forall k, k < length p -> aeq (piece ax a p k x) (piece ax a p k y)) -> aeq x y.
Proof. intros A ax p a x y. apply pieces_eq. Qed.

(** The inferred size of a piece on the other side is right when it does not depend on the other dimensions. *)
Theorem C16_inferred : forall reshape af ato n m,
  (forall shape a b, position (Axis af) (length shape) = Some a -> nth a shape 0 = n ->
     position (Axis ato) (length (reshape shape)) = Some b -> nth b (reshape shape) 0 = m) ->
  infer_one reshape (Axis af) (Axis ato) n = None \/ infer_one reshape (Axis af) (Axis ato) n = Some m.
Proof. exact infer_right. Qed.

(** Otherwise it may be wrong: the other dimensions are taken to be zero.  Here the operator drops the last dimension, as
    To1dOperator does. *)
Theorem C16_inferred_refuted : exists reshape ax n shape m, position ax (length shape) = Some 1 /\ nth 1 shape 0 = n
  /\ infer_one reshape ax ax n = Some m /\ forall b, position ax (length (reshape shape)) = Some b -> nth b (reshape shape) 0 <> m.
Proof.
  exists (@removelast nat), (Axis (-1)), 2, [5; 2], 0. do 2 (split; [reflexivity|]). split; [vm_compute; reflexivity|].
  intros b [= <-]. discriminate.
Qed.

Example C16_ex : partitioned (Axis (-1)) [2; 0; 3] [2; 5] 1 /\ partitioned (NewAxis 0) [1; 1] [2; 5] 0
  /\ flat_map (selected [2; 2]) (get_slices [1; 1] (Axis (-1))) = [[0; 0]; [1; 0]; [0; 1]; [1; 1]]
  /\ infer_one (fun s => map (Nat.mul 2) s) (Axis (-1)) (Axis (-1)) 3 = Some 6.
Proof. repeat split; vm_compute; reflexivity. Qed.

(** ** C17 *)

(** The method direct of a block operator computes the array described by the specification. *)
Theorem C17_direct : forall A (q : blockop A) pi po (x y out : array A),
  Forall proper (q_ops q) -> acts q pi po x y -> ashape out = ashape y ->
  exists r, block_direct q x out = Ok r /\ aeq r y.
Proof. intros A q pi po x y out. apply acts_run. Qed.

(** There is such an array as soon as the blocks return arrays that fit in the output (and the code computes it). *)
Theorem C17_diagonal : forall A (ks : list (blk A)) pi pout po axin axout ai ao (x out : array A),
  Forall proper ks -> length ks = length pi -> length ks = length po -> announced axin axout pout po ->
  partitioned axin pi (ashape x) ai -> partitioned axout po (ashape out) ao ->
  (forall k b, nth_error ks k = Some b -> ashape (k_fun b (piece axin ai pi k x)) = ashape (piece axout ao po k out)) ->
  exists r, diag_direct ks (map Some pi) pout axin axout x out = Ok r /\ ashape r = ashape out
    /\ forall k b, nth_error ks k = Some b -> aeq (piece axout ao po k r) (k_fun b (piece axin ai pi k x)).
Proof. intros A ks pi pout po axin axout ai ao x out. apply diag_spec. Qed.
Theorem C17_column : forall A (ks : list (blk A)) po axout ao (x out : array A),
  length ks = length po -> partitioned axout po (ashape out) ao ->
  (forall k b, nth_error ks k = Some b -> ashape (k_fun b x) = ashape (piece axout ao po k out)) ->
  exists r, column_direct ks (map Some po) axout x out = Ok r /\ ashape r = ashape out
    /\ forall k b, nth_error ks k = Some b -> aeq (piece axout ao po k r) (k_fun b x).
Proof. intros A ks po axout ao x out. apply column_spec. Qed.
Theorem C17_row : forall A (oper : A -> A -> A) (ks : list (blk A)) pi axin ai (x out : array A),
  ks <> [] -> Forall proper ks -> length ks = length pi -> partitioned axin pi (ashape x) ai ->
  (forall k b, nth_error ks k = Some b -> ashape (k_fun b (piece axin ai pi k x)) = ashape out) ->
  exists r, row_direct oper ks (map Some pi) axin x out = Ok r /\ ashape r = ashape out
    /\ forall idx d, inside (ashape out) idx -> aval r idx = total oper (block_outputs axin ai pi ks x) idx d.
Proof. intros A oper ks pi axin ai x out. apply row_spec. Qed.

(** In place: with the same partition on both sides and blocks that keep the shape, nothing is overwritten too early. *)
Theorem C17_inplace_partial : forall A ax p shape a (ks : list (blk A)) mem,
  partitioned ax p shape a -> Forall proper ks -> length ks = length p ->
  (forall k b (x : array A), nth_error ks k = Some b -> ashape x = piece_shape (Some ax) p k shape -> ashape (k_fun b x) = ashape x) ->
  exists mem', diag_loop_inplace ks (get_slices p ax) (get_slices p ax) shape shape mem = Ok mem'
    /\ forall k b, nth_error ks k = Some b -> aeq (piece ax a p k (Arr shape mem')) (k_fun b (piece ax a p k (Arr shape mem))).
Proof.
  intros A ax p shape a ks mem HP Hk Hl HS.
  destruct (inplace_loop ax a shape (proj1 HP) ks p 0 mem Hk Hl) as (mem' & E & V & _).
  - rewrite (partitioned_sum _ _ _ _ HP). apply Nat.le_refl.
  - apply (ones_of _ _ _ _ HP).
  - intros k b x Hb Hx. apply (HS k b x Hb). rewrite Hx. unfold piece_shape. rewrite (proj1 HP). destruct ax; reflexivity.
  - exists mem'. auto.
Qed.

(** A block operator made of one block is replaced by the block; this is right for existing axes. *)
Theorem C17_single_partial : forall A (q : blockop A) b pi po (x y : array A),
  proper b -> make q = inl b -> (forall z, q_in q <> Some (NewAxis z)) -> (forall z, q_out q <> Some (NewAxis z)) ->
  acts q pi po x y -> aeq (k_fun b x) y.
Proof. intros A q b pi po x y. apply single_acts. Qed.

(** *** Examples *)
Definition scale (c : Z) : blk Z := {| k_fun := amap (Z.mul c); k_reshapein := fun s => s |}.
Lemma scale_proper c : proper (scale c).
Proof. split; [|reflexivity]. intros x y H. apply amap_aeq, H. Qed.
Definition square : blk Z := {| k_fun := amap (fun v => v * v)%Z; k_reshapein := fun s => s |}.
Lemma square_proper : proper square.
Proof. split; [|reflexivity]. intros x y H. apply amap_aeq, H. Qed.
Definition vec (l : list Z) : array Z := Arr [length l] (fun idx => nth (nth 0 idx 0) l 0%Z).
Definition mat (n : nat) (l : list Z) : array Z :=
  Arr [Nat.div (length l) n; n] (fun idx => nth (nth 0 idx 0 * n + nth 1 idx 0) l 0%Z).
Lemma aeq_list {A} (x y : array A) : values (Ok x) = values (Ok y) -> aeq x y.
Proof.
  intros [= HS HV]. split; auto. intros idx Hi. apply in_indices in Hi. rewrite <- HS in HV. clear HS.
  induction (indices (ashape x)) as [|i l IH]; [destruct Hi|]. injection HV as H0 H1. destruct Hi as [<-|Hi]; auto.
Qed.
Ltac blocks := intros [|[|[|?k]]] ?b ?Hb; try discriminate;
  match goal with H : nth_error _ _ = Some _ |- _ => injection H as <- end.
Ltac concrete := apply aeq_list; vm_compute; reflexivity.
Definition two : blockop Z :=
  B (Some [Some 2; Some 3]) (Some [None; Some 3]) (Some (Axis 0)) (Some (Axis (-1))) [scale 2; scale 3] Z.add None None.

Example C17_ex : acts two [2; 3] [2; 3] (vec [1; 2; 3; 4; 5]%Z) (vec [2; 4; 9; 12; 15]%Z) /\ Forall proper (q_ops two).
Proof.
  split; [|repeat (apply Forall_cons; [apply scale_proper|]); apply Forall_nil].
  exists 0, 0, [None; Some 3]. do 2 (split; [reflexivity|]). split.
  { constructor; [right; eauto|]. constructor; [left; reflexivity|constructor]. }
  do 2 (split; [reflexivity|]). do 2 (split; [split; reflexivity|]). blocks; concrete.
Qed.
Example C17_row_ex :
  values (row_direct Z.mul [scale 2; scale 3] [Some 2; Some 2] (Axis 0) (vec [1; 2; 3; 4]%Z) (vec [0; 0]%Z)) = Some ([2], [18; 48]%Z).
Proof. vm_compute. reflexivity. Qed.
Example C17_column_ex :
  values (column_direct [scale 2; scale 3] [Some 1; Some 1] (NewAxis 1) (vec [1; 2]%Z) (Arr [2; 2] (fun _ => 0%Z))) = Some ([2; 2], [2; 3; 4; 6]%Z).
Proof. vm_compute. reflexivity. Qed.

(** *** What fails *)

(** A block that doubles the size: [a; b; ...] is mapped to [a; a; b; b; ...].  A block diagonal operator is run in place
    when its blocks are (products of operators always are), though the blocks may change the size. *)
Definition double : blk Z :=
  {| k_fun := fun x => Arr (map (Nat.mul 2) (ashape x)) (fun idx => aval x (map (fun i => Nat.div i 2) idx));
     k_reshapein := map (Nat.mul 2) |}.
Lemma double_proper : proper double.
Proof.
  split; [|reflexivity]. intros x y [S E]. split; cbn [double k_fun ashape aval]; [congruence|]. intros idx Hi. apply E.
  clear E S y. unfold inside in *. generalize dependent idx. induction (ashape x) as [|n s IH]; intros idx Hi; inversion Hi; subst; cbn [map]; constructor; auto.
  apply Nat.div_lt_upper_bound; lia.
Qed.
Definition inplace (ks : list (blk Z)) (pi po : list nat) (axin axout : axis) (shapeout : list nat) (x : array Z) : result (array Z) :=
  mem <- diag_loop_inplace ks (get_slices pi axin) (get_slices po axout) (ashape x) shapeout (aval x) ;; Ok (Arr shapeout mem).
Theorem C17_inplace_sizes_refuted : exists (ks : list (blk Z)) x out, Forall proper ks
  /\ values (diag_direct ks [Some 1; Some 1] [Some 2; Some 2] (Axis 0) (Axis 0) x out) = Some ([4], [5; 5; 6; 6]%Z)
  /\ values (inplace ks [1; 1] [2; 2] (Axis 0) (Axis 0) [4] x) = Some ([4], [5; 5; 5; 5]%Z).
Proof.
  exists [double; double], (vec [5; 6]%Z), (vec [0; 0; 0; 0]%Z). split; [repeat (apply Forall_cons; [apply double_proper|]); apply Forall_nil|].
  split; vm_compute; reflexivity.
Qed.
(** In place, with different axes: the operator is a transposition, but the second piece has already been changed. *)
Theorem C17_inplace_axes_refuted : exists (ks : list (blk Z)) x out, Forall proper ks
  /\ values (diag_direct ks [Some 1; Some 1] [Some 1; Some 1] (NewAxis 0) (NewAxis 1) x out) = Some ([2; 2], [1; 3; 2; 4]%Z)
  /\ values (inplace ks [1; 1] [1; 1] (NewAxis 0) (NewAxis 1) [2; 2] x) = Some ([2; 2], [1; 2; 2; 4]%Z).
Proof.
  exists [scale 1; scale 1], (mat 2 [1; 2; 3; 4]%Z), (mat 2 [0; 0; 0; 0]%Z). split; [repeat (apply Forall_cons; [apply scale_proper|]); apply Forall_nil|].
  split; vm_compute; reflexivity.
Qed.
(** A column or a row whose partition is not known cannot be applied, though the blocks are defined on the input. *)
Theorem C17_unknown_refuted : exists (ks : list (blk Z)) x out y, Forall proper ks /\ partitioned (Axis 0) [2; 2] (ashape y) 0 /\ ashape out = ashape y
  /\ (forall k b, nth_error ks k = Some b -> aeq (piece (Axis 0) 0 [2; 2] k y) (k_fun b x))
  /\ column_direct ks [None; Some 2] (Axis 0) x out = Raise TypeError /\ row_direct Z.add ks [None; Some 2] (Axis 0) y x = Raise TypeError.
Proof.
  exists [scale 2; scale 3], (vec [1; 2]%Z), (vec [0; 0; 0; 0]%Z), (vec [2; 4; 3; 6]%Z). split; [repeat (apply Forall_cons; [apply scale_proper|]); apply Forall_nil|].
  do 2 (split; [try split; reflexivity|]). split; [blocks; concrete|split; reflexivity].
Qed.
(** An input longer than the partition is accepted when the blocks are square (the output then has the shape of the
    input, 1213-1222); the end of the output is not set. *)
Theorem C17_oversized_refuted : exists (ks : list (blk Z)) x out out', Forall proper ks /\ ashape out = ashape x /\ ashape out' = ashape x
  /\ exists v v', values (diag_direct ks [Some 2; Some 3] [Some 2; Some 3] (Axis 0) (Axis 0) x out) = Some v
  /\ values (diag_direct ks [Some 2; Some 3] [Some 2; Some 3] (Axis 0) (Axis 0) x out') = Some v' /\ v <> v'.
Proof.
  exists [scale 2; scale 3], (vec [1; 2; 3; 4; 5; 6; 7]%Z), (vec [0; 0; 0; 0; 0; 0; 0]%Z), (vec [1; 1; 1; 1; 1; 1; 1]%Z).
  split; [repeat (apply Forall_cons; [apply scale_proper|]); apply Forall_nil|]. do 2 (split; [reflexivity|]).
  do 2 eexists. do 2 (split; [vm_compute; reflexivity|]). discriminate.
Qed.
(** With a new axis, a single block is not equivalent to the block operator. *)
Theorem C17_single_refuted : exists (q : blockop Z) b pi po x y, proper b /\ make q = inl b /\ acts q pi po x y /\ ashape (k_fun b x) <> ashape y.
Proof.
  exists (B None (Some [Some 1]) None (Some (NewAxis 0)) [scale 2] Z.add None None), (scale 2), [], [1], (vec [1; 2]%Z), (mat 2 [2; 4]%Z).
  split; [apply scale_proper|]. split; [reflexivity|]. split; [|discriminate].
  exists 0. do 3 (split; [reflexivity|]). split; [split; reflexivity|]. intros [|[|k]] b Hb; try discriminate. injection Hb as <-. concrete.
Qed.

(** ** C18 *)

(** The transpose of a block operator is its adjoint, when the blocks' transposes are. *)
Theorem C18_transpose : forall (K : cring) (q : blockop K) (f : blk K -> blk K) inf pi po (x r y out : array K),
  Forall proper (q_ops q) -> Forall proper (map f (q_ops q)) -> q_ops q <> [] -> q_oper q = radd ->
  acts q pi po x r -> ashape y = ashape r -> ashape out = ashape x ->
  (forall axin axout, q_in q = Some axin -> q_out q = Some axout -> q_pout q = Some (map Some po) /\ announced axout axin inf pi) ->
  adjoint_blocks f q pi po (ashape x) (ashape r) ->
  exists r', block_direct (rule_T radd inf f q) y out = Ok r' /\ ashape r' = ashape x /\ inner r y = inner x r'.
Proof. intros K q f inf pi po x r y out. apply transpose_adjoint. Qed.

(** The conjugate of a block operator; [c] is the conjugation of elements. *)
Theorem C18_conjugate : forall A (c : A -> A) (f : blk A -> blk A) add inf (q : blockop A) pi po (x r : array A),
  (forall b z, In b (q_ops q) -> aeq (k_fun (f b) z) (amap c (k_fun b (amap c z)))) ->
  (q_out q = None -> forall u v, c (q_oper q u v) = add (c u) (c v)) ->
  acts q pi po (amap c x) r ->
  (forall axin axout, q_in q = Some axin -> q_out q = Some axout -> announced axin axout inf po) ->
  acts (rule_C add inf f q) pi po x (amap c r).
Proof. intros A c f add inf q pi po x r. apply conj_acts. Qed.

(** The inverse of a block diagonal operator. *)
Theorem C18_inverse : forall A (f : blk A -> blk A) add inf (q : blockop A) axin axout pi po (x r : array A),
  q_in q = Some axin -> q_out q = Some axout -> Forall proper (map f (q_ops q)) ->
  acts q pi po x r -> q_pout q = Some (map Some po) -> announced axout axin inf pi ->
  (forall k b z, nth_error (q_ops q) k = Some b -> ashape z = piece_shape (Some axin) pi k (ashape x) -> aeq (k_fun (f b) (k_fun b z)) z) ->
  acts (rule_I add inf f q) po pi r x.
Proof. intros A f add inf q axin axout pi po x r. apply inverse_acts. Qed.

Definition row2 : blockop Zring := B (Some [Some 2; Some 2]) None (Some (Axis 0)) None [scale 2; scale 3] Z.add None None.
Lemma scale_adjoint c s : @adjoint Zring s s (scale c) (scale c).
Proof.
  split; [|split]; [intros x H; exact H|intros x H; exact H|]. intros x y Hx Hy. unfold inner. cbn [scale k_fun amap ashape aval].
  apply lsum_ext. intros idx _. change (c * aval x idx * aval y idx = aval x idx * (c * aval y idx))%Z. ring.
Qed.
Example C18_ex : acts row2 [2; 2] [] (vec [1; 2; 3; 4]%Z) (vec [11; 16]%Z)
  /\ adjoint_blocks (fun b => b) row2 [2; 2] [] [4] [2]
  /\ values (block_direct (rule_T Z.add [] (fun b => b) row2) (vec [1; 10]%Z) (vec [0; 0; 0; 0]%Z)) = Some ([4], [2; 20; 3; 30]%Z).
Proof.
  split; [|split; [|vm_compute; reflexivity]].
  - exists 0. do 2 (split; [reflexivity|]). split; [discriminate|]. split; [reflexivity|]. split; [split; reflexivity|].
    split; [blocks; reflexivity|]. intros idx d Hi. apply in_indices in Hi. destruct Hi as [<-|[<-|[]]]; reflexivity.
  - blocks; apply scale_adjoint.
Qed.

(** *** What fails *)

(** A block diagonal operator whose blocks are symmetric is its own transpose, whatever the axes: wrong for a cyclic
    permutation of the axes. *)
Theorem C18_symmetric_refuted : exists (q : blockop Zring) f symmetric inf pi po (x r y out r' : array Zring),
  Forall proper (q_ops q) /\ acts q pi po x r /\ adjoint_blocks f q pi po (ashape x) (ashape r)
  /\ (forall b, In b (q_ops q) -> symmetric b = true /\ f b = b) /\ ashape y = ashape r /\ ashape out = ashape x
  /\ block_direct (transpose Z.add inf f symmetric q) y out = Ok r' /\ inner r y <> inner x r'.
Proof.
  set (q := B (Some [Some 1; Some 1]) (Some [Some 1; Some 1]) (Some (NewAxis 0)) (Some (NewAxis 2)) [scale 1; scale 1] Z.add None None : blockop Zring).
  set (x := Arr [2; 2; 2] (fun i => Z.of_nat (4 * nth 0 i 0 + 2 * nth 1 i 0 + nth 2 i 0)) : array Zring).
  set (r := Arr [2; 2; 2] (fun i => Z.of_nat (4 * nth 2 i 0 + 2 * nth 0 i 0 + nth 1 i 0)) : array Zring).
  destruct (block_direct (transpose Z.add [Some 1; Some 1] (fun b => b) (fun _ => true) q) r x) as [r'|] eqn:E; [|vm_compute in E; discriminate].
  exists q, (fun b => b), (fun _ => true), [Some 1; Some 1], [1; 1], [1; 1], x, r, r, x, r'.
  split; [repeat (apply Forall_cons; [apply scale_proper|]); apply Forall_nil|]. split.
  { exists 0, 2, [Some 1; Some 1]. do 2 (split; [reflexivity|]). split; [repeat constructor|].
    do 2 (split; [reflexivity|]). do 2 (split; [split; reflexivity|]). blocks; concrete. }
  split; [blocks; apply scale_adjoint|]. split; [auto|]. do 3 (split; [auto|]).
  assert (H : match block_direct (transpose Z.add [Some 1; Some 1] (fun b => b) (fun _ => true) q) r x with
              | Ok r' => inner r r <> inner x r' | Raise _ => False end) by (vm_compute; discriminate).
  rewrite E in H. exact H.
Qed.

(** The conjugate of a block row loses the operation of the row.  Elements are Gaussian integers. *)
Definition conjugate (z : Z * Z) : Z * Z := (fst z, - snd z)%Z.
Definition gmul (z w : Z * Z) : Z * Z := (fst z * fst w - snd z * snd w, fst z * snd w + snd z * fst w)%Z.
Definition gadd (z w : Z * Z) : Z * Z := (fst z + fst w, snd z + snd w)%Z.
Definition gscale (c : Z * Z) : blk (Z * Z) := {| k_fun := amap (gmul c); k_reshapein := fun s => s |}.
Theorem C18_conjugate_operation_refuted : exists (q : blockop (Z * Z)) f x out,
  (forall b z, In b (q_ops q) -> aeq (k_fun (f b) z) (amap conjugate (k_fun b (amap conjugate z))))
  /\ q_oper q = gmul
  /\ values (r <- block_direct q (amap conjugate x) out ;; Ok (amap conjugate r)) = Some ([1], [(-1, 0)]%Z)
  /\ values (block_direct (rule_C gadd [] f q) x out) = Some ([1], [(0, -2)]%Z).
Proof.
  exists (B (Some [Some 1; Some 1]) None (Some (Axis 0)) None [gscale (0, 1)%Z; gscale (0, 1)%Z] gmul None None), (fun _ => gscale (0, -1)%Z),
    (Arr [2] (fun _ => (1, 0)%Z)), (Arr [1] (fun _ => (0, 0)%Z)).
  split; [|repeat split; vm_compute; reflexivity].
  intros b z [<-|[<-|[]]]; (split; [reflexivity|]); intros idx _; cbn [gscale k_fun amap aval]; unfold gmul, conjugate; cbn [fst snd]; f_equal; ring.
Qed.

(** A block row with the default operation is said to be linear even if its blocks are not. *)
Theorem C18_row_linear_refuted : exists (q : blockop Z) linear x out, (forall b, In b (q_ops q) -> linear b = false)
  /\ flag_linear linear true q = true
  /\ values (block_direct q x out) = Some ([1], [2]%Z) /\ values (block_direct q (amap (Z.mul 2) x) out) = Some ([1], [8]%Z).
Proof.
  exists (B (Some [Some 1; Some 1]) None (Some (Axis 0)) None [square; square] Z.add None None), (fun _ => false), (vec [1; 1]%Z), (vec [0]%Z).
  split; [auto|]. split; [reflexivity|]. split; vm_compute; reflexivity.
Qed.

(** ** C19 *)

(** The product of two block operators, merged into one. *)
Theorem C19_product : forall A add inf pout pin (p1 p2 q : blockop A) pi pm po (x m r : array A),
  Forall proper (q_ops p1) -> Forall proper (q_ops p2) ->
  (forall s, q_shapein p1 = Some s -> s = ashape m) -> (forall s, q_shapeout p2 = Some s -> s = ashape m) ->
  (q_out p1 = None -> q_oper p1 = add) ->
  acts p2 pi pm x m -> acts p1 pm po m r ->
  rule_comp add inf pout pin p1 p2 = Some (inr q) ->
  (forall axin axout, q_in p2 = Some axin -> q_out p1 = Some axout -> announced axin axout inf po) ->
  (q_in p2 = None -> q_pout q = Some (map Some po)) ->
  acts q pi po x r.
Proof. intros A add inf pout pin p1 p2 q pi pm po x m r. apply comp_acts. Qed.
Theorem C19_row_column : forall A add inf pout pin (p1 p2 : blockop A) ops pi pm po (x m r out : array A),
  Forall proper (q_ops p1) -> Forall proper (q_ops p2) ->
  (forall s, q_shapein p1 = Some s -> s = ashape m) -> (forall s, q_shapeout p2 = Some s -> s = ashape m) ->
  q_oper p1 = add ->
  acts p2 pi pm x m -> acts p1 pm po m r ->
  rule_comp add inf pout pin p1 p2 = Some (inl ops) -> ashape out = ashape r ->
  exists r', sum_direct add ops x out = Ok r' /\ aeq r' r.
Proof. intros A add inf pout pin p1 p2 ops pi pm po x m r out. apply comp_sum. Qed.

(** Two known partitions are only merged when they are equal. *)
Theorem C19_same_partition : forall p p' c,
  merge_none nat none_eqb (Some (map Some p)) (Some (map Some p')) = Ok c -> p = p' /\ c = Some (map Some p).
Proof. intros p p' c H. split; [eapply merge_known_eq|eapply merge_known_l]; eauto. Qed.
Theorem C19_merge_requires : forall A add inf pout pin (p1 p2 : blockop A) r p p',
  rule_comp add inf pout pin p1 p2 = Some r -> q_pin p1 = Some (map Some p) -> q_pout p2 = Some (map Some p') ->
  p = p' /\ axes_match p1 p2 = true.
Proof.
  intros A add inf pout pin p1 p2 r p p' H E1 E2. unfold rule_comp, rule_noncommutative in H. rewrite E1, E2 in H.
  destruct (axes_match p1 p2); [|discriminate].
  destruct (merge_none nat none_eqb (Some (map Some p)) (Some (map Some p'))) eqn:E; [|discriminate].
  split; [eapply merge_known_eq; eauto|auto].
Qed.

(** A separable square operator before or after a block operator is moved into the blocks; its action must be
    piecewise. *)
Theorem C19_left_partial : forall A add inf (op : blk A) (q q' : blockop A) pi po (x y : array A),
  proper op -> (forall s, k_reshapein op s = s) ->
  acts q pi po x y -> length (ashape y) <= 32 ->
  (forall axout ao, q_out q = Some axout -> position axout (length (ashape y)) = Some ao -> acts_piecewise axout ao po op y) ->
  rule_lcomp add inf op q = Some q' ->
  (forall axin axout, q_in q = Some axin -> q_out q = Some axout -> announced axin axout inf po) ->
  acts q' pi po x (k_fun op y).
Proof. intros A add inf op q q' pi po x y. apply lcomp_acts. Qed.
Theorem C19_right_partial : forall A add inf reshapeout (op : blk A) (q q' : blockop A) pi po (x y : array A),
  Forall proper (q_ops q) -> (forall s, reshapeout s = s) -> (q_out q = None -> q_oper q = add) ->
  acts q pi po (k_fun op x) y -> length (ashape x) <= 32 ->
  (forall axin ai, q_in q = Some axin -> position axin (length (ashape x)) = Some ai -> acts_piecewise axin ai pi op x) ->
  ashape (k_fun op x) = ashape x ->
  rule_rcomp add inf reshapeout q op = Some q' ->
  (forall axin axout, q_in q = Some axin -> q_out q = Some axout -> announced axin axout inf po) ->
  acts q' pi po x y.
Proof. intros A add inf reshapeout op q q' pi po x y. apply rcomp_acts. Qed.

(** The sum (for rows: the operation must be that of the rows) or the element-wise product of two block operators. *)
Theorem C19_sum_partial : forall A add oper inf (p1 p2 q : blockop A) pi po (x y1 y2 : array A),
  (q_out p1 = None -> q_oper p1 = oper /\ q_oper p2 = oper /\ add = oper /\ (forall u v, oper u v = oper v u)
     /\ (forall u v w, oper u (oper v w) = oper (oper u v) w)) ->
  ashape y1 = ashape y2 -> length (q_ops p1) = length (q_ops p2) ->
  acts p1 pi po x y1 -> acts p2 pi po x y2 ->
  rule_same add oper inf p1 p2 = Some q ->
  (forall axin axout, q_in p1 = Some axin -> q_out p1 = Some axout -> announced axin axout inf po) ->
  acts q pi po x (both oper y1 y2).
Proof. intros A add oper inf p1 p2 q pi po x y1 y2. apply same_acts. Qed.
Theorem C19_sum_separable_partial : forall A add oper inf (op : blk A) (q : blockop A) axin pi (x y : array A) ai,
  q_in q = Some axin -> q_out q = Some axin -> position axin (length (ashape x)) = Some ai -> ashape y = ashape x ->
  acts q pi pi x y -> acts_piecewise axin ai pi op x -> announced axin axin inf pi ->
  acts (rule_commutative add oper inf q op) pi pi x (both oper y (k_fun op x)).
Proof. intros A add oper inf op q axin pi x y ai. apply commutative_acts. Qed.

Example C19_ex : exists q, rule_comp Z.add [] [] [Some 2; Some 2] row2 (B (Some [Some 2; Some 2]) (Some [Some 2; None]) (Some (Axis 0)) (Some (Axis 0)) [square; scale 5] Z.add None None) = Some (inr q)
  /\ values (block_direct q (vec [1; 2; 3; 4]%Z) (vec [0; 0]%Z)) = Some ([2], [47; 68]%Z).
Proof. eexists. split; [reflexivity|vm_compute; reflexivity]. Qed.
Example C19_row_column_ex : exists ops, rule_comp Z.add [] [] [] row2 (B None (Some [Some 2; Some 2]) None (Some (Axis 0)) [square; scale 5] Z.add None None) = Some (inl ops)
  /\ values (sum_direct Z.add ops (vec [1; 2]%Z) (vec [0; 0]%Z)) = Some ([2], [17; 38]%Z).
Proof. eexists. split; [reflexivity|vm_compute; reflexivity]. Qed.
Example C19_piecewise_ex : acts_piecewise (Axis 0) 0 [2; 2] square (vec [1; 2; 3; 4]%Z).
Proof. split; [reflexivity|]. intros k Hk. destruct k as [|[|k]]; [concrete|concrete|cbn in Hk; lia]. Qed.

(** *** What fails *)
Definition row (oper : Z -> Z -> Z) (ks : list (blk Z)) : blockop Z := B (Some [Some 1; Some 1]) None (Some (Axis 0)) None ks oper None None.
Definition diag (axin axout : axis) (ks : list (blk Z)) : blockop Z := B (Some [Some 1; Some 1]) (Some [Some 1; Some 1]) (Some axin) (Some axout) ks Z.add None None.

(** The element-wise product of two block rows is merged into a row of products. *)
Theorem C19_row_times_row_refuted : exists p1 p2 q x out y1 y2, rule_same Z.add Z.mul [] p1 p2 = Some q
  /\ block_direct p1 x out = Ok y1 /\ block_direct p2 x out = Ok y2
  /\ values (block_direct q x out) <> values (Ok (both Z.mul y1 y2)).
Proof.
  destruct (block_direct (row Z.add [scale 1; scale 1]) (vec [1; 1]%Z) (vec [0]%Z)) as [y|] eqn:E; [|vm_compute in E; discriminate].
  exists (row Z.add [scale 1; scale 1]), (row Z.add [scale 1; scale 1]). eexists. exists (vec [1; 1]%Z), (vec [0]%Z), y, y.
  split; [reflexivity|]. do 2 (split; [exact E|]). injection E as <-. vm_compute. discriminate.
Qed.
(** The operator * with a nonlinear block operator is neither the element-wise product nor the composition. *)
Theorem C19_times_nonlinear_refuted : exists p1 p2 q x out, mul_nonlinear Z.mul Z.add [] [] [Some 1; Some 1] p1 p2 = Some (inr q)
  /\ values (block_direct q x out) = Some ([1], [9]%Z)
  /\ values (block_direct p1 x out) = Some ([1], [3]%Z) /\ values (block_direct p2 x x) = Some ([2], [1; 4]%Z)
  /\ values (m <- block_direct p2 x x ;; block_direct p1 m out) = Some ([1], [5]%Z).
Proof.
  exists (row Z.add [scale 1; scale 1]), (diag (Axis 0) (Axis 0) [square; square]). eexists. exists (vec [1; 2]%Z), (vec [0]%Z).
  split; [reflexivity|]. repeat split; vm_compute; reflexivity.
Qed.
(** A block row with another operation than the addition loses it. *)
Theorem C19_operation_lost_refuted : exists p1 p2 q x out, rule_comp Z.add [] [] [Some 1; Some 1] p1 p2 = Some (inr q)
  /\ values (m <- block_direct p2 x x ;; block_direct p1 m out) = Some ([1], [12]%Z)
  /\ values (block_direct q x out) = Some ([1], [8]%Z).
Proof.
  exists (row Z.mul [scale 1; scale 1]), (diag (Axis 0) (Axis 0) [scale 2; scale 2]). eexists. exists (vec [1; 3]%Z), (vec [0]%Z).
  split; [reflexivity|]. repeat split; vm_compute; reflexivity.
Qed.
(** The operators said to be separable are not all so.  To1dOperator((4, 4)) reads the last dimension. *)
Definition safe (x : array Z) (idx : list nat) : Z := if in_dec (list_eq_dec Nat.eq_dec) idx (indices (ashape x)) then aval x idx else 0%Z.
Definition to1d : blk Z :=
  {| k_fun := fun x => Arr (removelast (ashape x)) (fun idx => 4 * safe x (idx ++ [0%nat]) + safe x (idx ++ [1%nat]))%Z;
     k_reshapein := @removelast nat |}.
Theorem C19_separable_refuted : exists p q x m out, rule_lcomp Z.add [] to1d p = Some q
  /\ values (y <- block_direct p x m ;; Ok (k_fun to1d y)) = Some ([2], [11; 21]%Z)
  /\ values (block_direct q x out) = Some ([2], [7; 37]%Z).
Proof.
  exists (B None (Some [Some 1; Some 1]) None (Some (NewAxis (-1))) [scale 1; {| k_fun := amap (Z.add 6); k_reshapein := fun s => s |}] Z.add None None).
  eexists. exists (vec [1; 3]%Z), (mat 2 [0; 0; 0; 0]%Z), (vec [0; 0]%Z). split; [reflexivity|]. split; vm_compute; reflexivity.
Qed.
(** MaximumOperator(value) for an array of values, one for each element of the last dimension (nonlinear.py 533-575). *)
Definition maximum (value : list Z) : blk Z :=
  {| k_fun := fun x => Arr (ashape x) (fun idx => Z.max (aval x idx) (nth (last idx 0%nat) value 0%Z)); k_reshapein := fun s => s |}.
(** Finding: MaximumOperator, MinimumOperator and ClipOperator are said to be separable although their limits may be arrays.  The product of
    MaximumOperator([0, 10]) and a block column of which the blocks are stacked along a new last axis applies the two limits along the axis of
    the blocks' own outputs instead: no error, other values. *)
Theorem C19_threshold_refuted : exists p q x m out, rule_lcomp Z.add [] (maximum [0; 10]%Z) p = Some q
  /\ values (y <- block_direct p x m ;; Ok (k_fun (maximum [0; 10]%Z) y)) = Some ([2; 2], [1; 10; 3; 10]%Z)
  /\ values (block_direct q x out) = Some ([2; 2], [1; 7; 10; 10]%Z).
Proof.
  exists (B None (Some [Some 1; Some 1]) None (Some (NewAxis (-1))) [scale 1; {| k_fun := amap (Z.add 6); k_reshapein := fun s => s |}] Z.add None None).
  eexists. exists (vec [1; 3]%Z), (mat 2 [0; 0; 0; 0]%Z), (mat 2 [0; 0; 0; 0]%Z). split; [reflexivity|]. split; vm_compute; reflexivity.
Qed.
(** Adding a separable operator to the blocks is wrong when the axes differ: here the operator is a transposition. *)
Theorem C19_sum_separable_refuted : exists p x out, 
  values (y <- block_direct p x out ;; Ok (both Z.add y (k_fun square x))) = Some ([2; 2], [2; 7; 11; 20]%Z)
  /\ values (block_direct (rule_commutative Z.add Z.add [Some 1; Some 1] p square) x out) = Some ([2; 2], [2; 12; 6; 20]%Z).
Proof.
  exists (diag (NewAxis 0) (NewAxis 1) [scale 1; scale 1]), (mat 2 [1; 2; 3; 4]%Z), (mat 2 [0; 0; 0; 0]%Z).
  split; vm_compute; reflexivity.
Qed.
Print Assumptions C16_tile.
Print Assumptions C16_pieces.
Print Assumptions C16_fill.
Print Assumptions C16_determined.
Print Assumptions C16_inferred.
Print Assumptions C16_inferred_refuted.
Print Assumptions C17_direct.
Print Assumptions C17_diagonal.
Print Assumptions C17_column.
Print Assumptions C17_row.
Print Assumptions C17_inplace_partial.
Print Assumptions C17_single_partial.
Print Assumptions C17_inplace_sizes_refuted.
Print Assumptions C17_inplace_axes_refuted.
Print Assumptions C17_unknown_refuted.
Print Assumptions C17_oversized_refuted.
Print Assumptions C17_single_refuted.
Print Assumptions C18_transpose.
Print Assumptions C18_conjugate.
Print Assumptions C18_inverse.
Print Assumptions C18_symmetric_refuted.
Print Assumptions C18_conjugate_operation_refuted.
Print Assumptions C18_row_linear_refuted.
Print Assumptions C19_product.
Print Assumptions C19_row_column.
Print Assumptions C19_same_partition.
Print Assumptions C19_merge_requires.
Print Assumptions C19_left_partial.
Print Assumptions C19_right_partial.
Print Assumptions C19_sum_partial.
Print Assumptions C19_sum_separable_partial.
Print Assumptions C19_row_times_row_refuted.
Print Assumptions C19_times_nonlinear_refuted.
Print Assumptions C19_operation_lost_refuted.
Print Assumptions C19_separable_refuted.
Print Assumptions C19_threshold_refuted.
Print Assumptions C19_sum_separable_refuted.
