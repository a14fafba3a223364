(** C53: diagonal, mask and constant operators distributed over the blocks of block operators. *)
From Verif Require Import Base Algebra SeqModel BlockModel BlockSpec BlockProofs DiagModel DiagRulesModel DiagSpec DiagProofs DiagProps DistModel DistSpec DistProofs DistBlocks.

(** The operator that is given to the block k, applied to the part for that block, gives that part of the result. *)
Theorem C53_pieces {K : dring} (op : diag K) ops shape part ax p a (x y : array K) :
  made op -> partitioned ax p (ashape x) a -> sizes part p -> diag_ready op shape (ashape x) ax a ->
  split_diag op (length p) shape (Some part) (Some ax) = Ok (Some ops) -> apply op x = Ok y ->
  length ops = length p /\
  forall k dflt, k < length p -> exists y', apply (nth k ops dflt) (piece ax a p k x) = Ok y' /\ aeq y' (piece ax a p k y).
Proof. intros M P S R E Y. eapply split_diag_ok; eauto. Qed.

Theorem C53_constant_pieces {K : dring} (op : constop K) ops shape part ax p a (y c : array K) :
  kmade op -> partitioned ax p (ashape y) a -> sizes part p -> const_ready op shape (ashape y) ax a ->
  split_const op (length p) shape (Some part) (Some ax) = Ok (Some ops) -> constant_apply op (ashape y) = Ok c ->
  length ops = length p /\
  forall k dflt, k < length p -> exists c', constant_apply (nth k ops dflt) (ashape (piece ax a p k y)) = Ok c' /\ aeq c' (piece ax a p k c).
Proof. intros M P S R E Y. eapply split_const_ok; eauto. Qed.

(** D * q *)
Theorem C53_left {K : dring} add inf (op : diag K) (q q' : blockop K) pi po (x y z : array K) : made op ->
  acts q pi po x y -> apply op y = Ok z ->
  (forall axout ao, q_out q = Some axout -> position axout (length (ashape y)) = Some ao -> diag_ready op (q_shapeout q) (ashape y) axout ao) ->
  diag_block add inf op q = Ok (Some q') ->
  (forall axin axout, q_in q = Some axin -> q_out q = Some axout -> announced axin axout inf po) ->
  acts q' pi po x z.
Proof. apply diag_block_acts. Qed.

(** q * D *)
Theorem C53_right {K : dring} add inf (op : diag K) (q q' : blockop K) pi po (x z y : array K) : made op -> Forall BlockSpec.proper (q_ops q) ->
  (q_out q = None -> q_oper q = add) -> apply op x = Ok z -> acts q pi po z y ->
  (forall axin ai, q_in q = Some axin -> position axin (length (ashape x)) = Some ai -> diag_ready op (q_shapein q) (ashape x) axin ai) ->
  block_diag add inf q op = Ok (Some q') ->
  (forall axin axout, q_in q = Some axin -> q_out q = Some axout -> announced axin axout inf po) ->
  acts q' pi po x y.
Proof. apply block_diag_acts. Qed.

(** D + q, or the element-wise product of their results, for a block diagonal operator whose two axes are the same *)
Theorem C53_sum_partial {K : dring} oper add inf (op : diag K) (q q' : blockop K) ax pi (x y z : array K) : made op ->
  q_in q = Some ax -> q_out q = Some ax -> ashape y = ashape x -> acts q pi pi x y -> apply op x = Ok z ->
  (forall a, position ax (length (ashape x)) = Some a -> diag_ready op (q_shapeout q) (ashape x) ax a) ->
  diag_with_block oper add inf op q = Ok (Some q') -> announced ax ax inf pi ->
  acts q' pi pi x (both oper z y).
Proof. apply diag_with_block_acts. Qed.

(** c + q, or the element-wise product, for a constant *)
Theorem C53_constant {K : dring} oper add inf (op : constop K) (q q' : blockop K) pi po (x y c : array K) : kmade op ->
  Forall BlockSpec.proper (q_ops q) -> acts q pi po x y -> constant_apply op (ashape y) = Ok c ->
  (forall axout ao, q_out q = Some axout -> position axout (length (ashape y)) = Some ao -> const_ready op (q_shapeout q) (ashape y) axout ao) ->
  const_with_block oper add inf op q = Ok (Some q') ->
  (forall axin axout, q_in q = Some axin -> q_out q = Some axout -> announced axin axout inf po) ->
  acts q' pi po x (both oper c y).
Proof. apply const_with_block_acts. Qed.

(** When the shape of the arrays is known, the rule is used for all these operators. *)
Theorem C53_used {K : dring} (op : diag K) n s ax p a : made op -> partitioned ax p s a -> (0 <= axis_value ax)%Z ->
  (exists x y, ashape x = s /\ apply op x = Ok y) ->
  d_class op <> Zero -> (forall c, d_class op <> Homothety c) -> exists ops, split_diag op n (Some s) (Some (map Some p)) (Some ax) = Ok (Some ops).
Proof. apply split_diag_known. Qed.

(** *** Examples *)
Definition times (c : Z) : blk ZD := {| k_fun := fun x => Arr (ashape x) (fun idx => c * aval x idx)%Z; k_reshapein := fun s => s |}.
Lemma times_proper c : BlockSpec.proper (times c).
Proof. split; [|reflexivity]. intros x y [S E]. split; cbn; auto. intros idx I. rewrite E; auto. Qed.
Lemma same_elements (x y : array ZD) : elements (Ok x) = elements (Ok y) -> aeq x y.
Proof.
  unfold elements, ravel. intros [= HS HV]. split; auto. intros idx Hi. apply in_indices in Hi. rewrite <- HS in HV. exact (ext_in_map HV idx Hi).
Qed.
Ltac two_blocks := intros [|[|[|?k]]] ?b ?Hb; try discriminate;
  match goal with H : nth_error _ _ = Some _ |- _ => injection H as <- end; apply same_elements; vm_compute; reflexivity.

(** DiagonalOperator([2, 3, 4]) * BlockDiagonalOperator([10 I, 100 I], partition (2, 1), axis 0) *)
Definition two_one : blockop ZD := B (Some [Some 2; Some 1]) (Some [Some 2; Some 1]) (Some (Axis 0)) (Some (Axis 0)) [times 10; times 100] Z.add None None.
Definition d234 := diagonal (vec [2; 3; 4]%Z) Disabled.
Example C53_left_example : made d234 /\ acts two_one [2; 1] [2; 1] (vec [1; 2; 3]%Z) (vec [10; 20; 300]%Z) /\
  elements (apply d234 (vec [10; 20; 300]%Z)) = Some ([3], [20; 60; 1200]%Z) /\
  diag_ready d234 None [3] (Axis 0) 0 /\
  match diag_block (K := ZD) Z.add [Some 2; Some 1] d234 two_one with
  | Ok (Some q') => elements (block_direct q' (vec [1; 2; 3]%Z) (vec [0; 0; 0]%Z)) = Some ([3], [20; 60; 1200]%Z)
  | _ => False
  end.
Proof.
  split; [apply made_diagonal; intro; discriminate|]. split.
  { exists 0, 0, [Some 2; Some 1]. do 2 (split; [reflexivity|]). split; [repeat constructor|]. do 2 (split; [reflexivity|]). do 2 (split; [split; reflexivity|]). two_blocks. }
  split; [vm_compute; reflexivity|]. split; [|vm_compute; reflexivity]. vm_compute. split; [repeat split|]. right. left. reflexivity.
Qed.
(** The parts of a mask on the second dimension, along the first and along the second dimension of 2 x 3 arrays *)
Definition m3 := mask (K := ZD) (bvec [true; false; false]) Leftward None.
Example C53_pieces_example : made m3 /\ partitioned (Axis 0) [1; 1] [2; 3] 0 /\ diag_ready m3 (Some [2; 3]) [2; 3] (Axis 0) 0 /\
  split_diag m3 2 (Some [2; 3]) (Some [Some 1; Some 1]) (Some (Axis 0)) = Ok (Some [m3; m3]) /\
  match split_diag m3 2 (Some [2; 3]) (Some [Some 2; Some 1]) (Some (Axis 1)) with
  | Ok (Some [a; b]) => elements (apply a (mat 2 2 [1; 2; 3; 4]%Z)) = Some ([2; 2], [0; 2; 0; 4]%Z) /\ elements (apply b (mat 2 1 [1; 2]%Z)) = Some ([2; 1], [1; 2]%Z)
  | _ => False
  end.
Proof.
  split; [apply made_mask; intro; discriminate|]. split; [split; reflexivity|]. split; [vm_compute; repeat split; auto; discriminate|]. split; [reflexivity|]. vm_compute. auto.
Qed.
(** A block row with the DiagonalOperator [2, 3, 4, 5] on its right *)
Definition row_22 : blockop ZD := B (Some [Some 2; Some 2]) None (Some (Axis 0)) None [times 10; times 100] Z.add (Some [4]) None.
Definition d2345 := diagonal (vec [2; 3; 4; 5]%Z) Leftward.
Example C53_right_example : made d2345 /\ Forall BlockSpec.proper (q_ops row_22) /\ elements (apply d2345 (vec [1; 1; 1; 1]%Z)) = Some ([4], [2; 3; 4; 5]%Z) /\
  acts row_22 [2; 2] [] (vec [2; 3; 4; 5]%Z) (vec [420; 530]%Z) /\ diag_ready d2345 (Some [4]) [4] (Axis 0) 0 /\
  match block_diag (K := ZD) Z.add [] row_22 d2345 with
  | Ok (Some q') => elements (block_direct q' (vec [1; 1; 1; 1]%Z) (vec [0; 0]%Z)) = Some ([2], [420; 530]%Z)
  | _ => False
  end.
Proof.
  split; [apply made_diagonal; intro; discriminate|]. split; [repeat (apply Forall_cons; [apply times_proper|]); apply Forall_nil|].
  split; [vm_compute; reflexivity|]. split; [|split; [vm_compute; repeat split; auto; discriminate|vm_compute; reflexivity]].
  exists 0. do 2 (split; [reflexivity|]). split; [discriminate|]. split; [reflexivity|]. split; [split; reflexivity|]. split.
  - intros [|[|[|k]]] b; try discriminate; intros [= <-]; reflexivity.
  - intros idx d Hi. apply in_indices in Hi. cbn in Hi. destruct Hi as [<-|[<-|[]]]; reflexivity.
Qed.
(** A sum with a block diagonal operator, and with a constant *)
Example C53_sum_example : elements (apply d234 (vec [1; 2; 3]%Z)) = Some ([3], [2; 6; 12]%Z) /\
  match diag_with_block (K := ZD) Z.add Z.add [Some 2; Some 1] d234 two_one with
  | Ok (Some q') => elements (block_direct q' (vec [1; 2; 3]%Z) (vec [0; 0; 0]%Z)) = Some ([3], [12; 26; 312]%Z)
  | _ => False
  end.
Proof. vm_compute. auto. Qed.
Definition column_21 : blockop ZD := B None (Some [Some 2; Some 2]) None (Some (Axis 0)) [times 10; times 100] Z.add None None.
Example C53_constant_example : exists k, constant (vec [1; 2; 3; 4]%Z) Leftward = Ok k /\
  acts column_21 [] [2; 2] (vec [5; 6]%Z) (vec [50; 60; 500; 600]%Z) /\ const_ready k None [4] (Axis 0) 0 /\
  match const_with_block (K := ZD) Z.add Z.add [] k column_21 with Ok None => True | _ => False end /\
  match const_with_block (K := ZD) Z.add Z.add [] k (B None (Some [Some 2; Some 2]) None (Some (Axis (-1))) [times 10; times 100] Z.add None None) with
  | Ok (Some q') => elements (block_direct q' (vec [5; 6]%Z) (vec [0; 0; 0; 0]%Z)) = Some ([4], [51; 62; 503; 604]%Z)
  | _ => False
  end.
Proof.
  eexists. split; [reflexivity|]. split; [|split; [vm_compute; repeat split; left; reflexivity|vm_compute; auto]].
  exists 0. do 2 (split; [reflexivity|]). split; [reflexivity|]. split; [split; reflexivity|]. two_blocks.
Qed.
Example C53_used_example : d_class d2345 <> Zero /\ (forall c, d_class d2345 <> Homothety c) /\ partitioned (NewAxis 1) [1; 1] [4; 2] 1.
Proof. split; [discriminate|]. split; [discriminate|split; reflexivity]. Qed.

(** *** What fails *)

(** The test of core.py 4070 is axis > ndim, where the first axis that the data does not cover is axis = ndim: the product of DiagonalOperator([2, 3], broadcast='rightward') and of a block diagonal operator along the axis 1, whose blocks have implicit shapes, raises IndexError although its operands can be applied one after the other. *)
Theorem C53_boundary_refuted : exists (op : diag ZD) (q : blockop ZD) (x y z : array ZD), made op /\ acts q [1; 1] [1; 1] x y /\ apply op y = Ok z /\
  q_shapeout q = None /\ q_out q = Some (Axis 1) /\ diag_ready op None (ashape y) (Axis 1) 1 /\ diag_block (K := ZD) Z.add [Some 1; Some 1] op q = Raise IndexError.
Proof.
  exists (diagonal (vec [2; 3]%Z) Rightward), (B (Some [Some 1; Some 1]) (Some [Some 1; Some 1]) (Some (Axis 1)) (Some (Axis 1)) [times 10; times 100] Z.add None None),
    (mat 2 2 [1; 2; 3; 4]%Z), (mat 2 2 [10; 200; 30; 400]%Z). eexists. split; [apply made_diagonal; intro; discriminate|]. split.
  { exists 1, 1, [Some 1; Some 1]. do 2 (split; [reflexivity|]). split; [repeat constructor|]. do 2 (split; [reflexivity|]). do 2 (split; [split; reflexivity|]). two_blocks. }
  split; [vm_compute; reflexivity|]. do 2 (split; [reflexivity|]). split; [|vm_compute; reflexivity]. vm_compute. repeat split; auto.
Qed.

(** Data of size one along the axis is stretched by the broadcast but sliced by the rule when the shapes are implicit, core.py 4094-4111: the second slice of DiagonalOperator([[2, 3, 4]], broadcast='rightward') is empty, a DiagonalOperator without elements is a ZeroOperator, and the product with a block diagonal operator silently gives zeros in the second block. *)
Theorem C53_stretched_refuted : exists (op : diag ZD) (q q' : blockop ZD) (x y z : array ZD), made op /\ acts q [1; 1] [1; 1] x y /\ apply op y = Ok z /\
  diag_block (K := ZD) Z.add [Some 1; Some 1] op q = Ok (Some q') /\ q_shapeout q = None /\
  elements (Ok z) = Some ([2; 3], [2; 6; 12; 8; 15; 24]%Z) /\ elements (block_direct q' x (mat 2 3 [0; 0; 0; 0; 0; 0]%Z)) = Some ([2; 3], [2; 6; 12; 0; 0; 0]%Z).
Proof.
  exists (diagonal (mat 1 3 [2; 3; 4]%Z) Rightward), (B (Some [Some 1; Some 1]) (Some [Some 1; Some 1]) (Some (Axis 0)) (Some (Axis 0)) [times 1; times 1] Z.add None None).
  eexists. exists (mat 2 3 [1; 2; 3; 4; 5; 6]%Z), (mat 2 3 [1; 2; 3; 4; 5; 6]%Z). eexists. split; [apply made_diagonal; intro; discriminate|]. split.
  { exists 0, 0, [Some 1; Some 1]. do 2 (split; [reflexivity|]). split; [repeat constructor|]. do 2 (split; [reflexivity|]). do 2 (split; [split; reflexivity|]). two_blocks. }
  split; [vm_compute; reflexivity|]. split; [vm_compute; reflexivity|]. split; [reflexivity|]. split; vm_compute; reflexivity.
Qed.

(** For a new axis -1 and one-dimensional data that is broadcast rightward, the data is replicated, core.py 4057-4067: if the array has no other dimension, then the data lies along the new axis and each block is multiplied by all of it: the application raises ValueError, where the operands can be applied one after the other. *)
Theorem C53_new_axis_refuted : exists (op : diag ZD) (x y : array ZD), made op /\ partitioned (NewAxis (-1)) [1; 1] (ashape x) 0 /\ apply op x = Ok y /\
  split_diag op 2 None (Some [Some 1; Some 1]) (Some (NewAxis (-1))) = Ok (Some [op; op]) /\ apply op (piece (NewAxis (-1)) 0 [1; 1] 0 x) = Raise ValueError.
Proof.
  exists (diagonal (vec [2; 3]%Z) Rightward), (vec [1; 2]%Z). eexists. split; [apply made_diagonal; intro; discriminate|]. split; [split; reflexivity|].
  split; [vm_compute; reflexivity|]. split; vm_compute; reflexivity.
Qed.

(** DiagonalOperator([2, 2, 2, 2]) is a HomothetyOperator of shape (4,); when the shape of the arrays is not known to the block operator, core.py 4052-4054, this operator itself is given to the blocks, whose arrays have another shape: the application raises ValueError. *)
Theorem C53_declared_refuted : exists (op : diag ZD) (x y : array ZD), made op /\ op = diagonal (vec [2; 2; 2; 2]%Z) Disabled /\ partitioned (Axis 0) [2; 2] (ashape x) 0 /\ apply op x = Ok y /\
  split_diag op 2 None (Some [Some 2; Some 2]) (Some (Axis 0)) = Ok (Some [op; op]) /\ apply op (piece (Axis 0) 0 [2; 2] 0 x) = Raise ValueError.
Proof.
  exists (diagonal (vec [2; 2; 2; 2]%Z) Disabled), (vec [1; 2; 3; 4]%Z). eexists. split; [apply made_diagonal; intro; discriminate|]. split; [reflexivity|]. split; [split; reflexivity|].
  split; [vm_compute; reflexivity|]. split; vm_compute; reflexivity.
Qed.

(** In the sum of a diagonal operator and of a block column, the parts for the output partition are added to the blocks, core.py 4130-4135, but each part is then applied to the whole input.  Here DiagonalOperator([2, 3, 4, 5, ...]) is of size 4 and the blocks are 2 x 4 matrices: the sum is a 4 x 4 operator, but its first block would apply a diagonal of size 2 to a vector of size 4. *)
Theorem C53_sum_column_refuted : exists (op : diag ZD) (q : blockop ZD) (ops : list (diag ZD)) (x y z : array ZD), made op /\
  q_in q = None /\ q_out q = Some (Axis 0) /\ acts q [] [2; 2] x y /\ ashape y = ashape x /\ apply op x = Ok z /\
  split_diag op 2 (q_shapeout q) (q_pout q) (q_out q) = Ok (Some ops) /\ exists d, nth_error ops 0 = Some d /\ apply d x = Raise ValueError.
Proof.
  pose (half := fun lo : nat => {| k_fun := fun x : array ZD => Arr [2] (fun idx => aval x [lo + nth 0 idx 0]); k_reshapein := fun _ => [2] |}).
  exists (diagonal (vec [2; 3; 4; 5]%Z) Disabled), (B None (Some [Some 2; Some 2]) None (Some (Axis 0)) [half 2; half 0] Z.add None None).
  eexists. exists (vec [1; 2; 3; 4]%Z), (vec [3; 4; 1; 2]%Z). eexists. split; [apply made_diagonal; intro; discriminate|]. do 2 (split; [reflexivity|]). split.
  { exists 0. do 2 (split; [reflexivity|]). split; [reflexivity|]. split; [split; reflexivity|]. two_blocks. }
  split; [reflexivity|]. split; [vm_compute; reflexivity|]. split; [reflexivity|]. eexists. split; [reflexivity|vm_compute; reflexivity].
Qed.

(** A homothety and a block operator of known shape one of whose pieces is empty: HomothetyOperator reads the first element of an empty slice, core.py 4357-4360, and the product raises IndexError. *)
Theorem C53_empty_refuted : exists (op : diag ZD) (q : blockop ZD) (x y z : array ZD), made op /\ acts q [2; 0] [2; 0] x y /\ apply op y = Ok z /\
  diag_ready op (q_shapeout q) (ashape y) (Axis 0) 0 /\ diag_block (K := ZD) Z.add [Some 2; Some 0] op q = Raise IndexError.
Proof.
  exists (homothety (K := ZD) 5%Z None), (B (Some [Some 2; Some 0]) (Some [Some 2; Some 0]) (Some (Axis 0)) (Some (Axis 0)) [times 10; times 100] Z.add (Some [2]) (Some [2])),
    (vec [1; 2]%Z), (vec [10; 20]%Z). eexists. split; [apply made_homothety|]. split.
  { exists 0, 0, [Some 2; Some 0]. do 2 (split; [reflexivity|]). split; [repeat constructor|]. do 2 (split; [reflexivity|]). do 2 (split; [split; reflexivity|]). two_blocks. }
  split; [vm_compute; reflexivity|]. split; [vm_compute; repeat split; auto; discriminate|]. vm_compute; reflexivity.
Qed.

(** The operation of a block row is not passed on, core.py 4113-4121: a BlockRowOperator whose operation is a product becomes a sum when it is composed with a diagonal operator. *)
Theorem C53_operation_refuted : exists (op : diag ZD) (q q' : blockop ZD) (x z : array ZD), made op /\ q_oper q = Z.mul /\ apply op x = Ok z /\
  block_diag (K := ZD) Z.add [] q op = Ok (Some q') /\
  elements (block_direct q z (vec [0; 0]%Z)) = Some ([2], [20; 60]%Z) /\ elements (block_direct q' x (vec [0; 0]%Z)) = Some ([2], [12; 19]%Z).
Proof.
  exists (diagonal (vec [1; 2; 1; 3]%Z) Leftward), (B (Some [Some 2; Some 2]) None (Some (Axis 0)) None [times 1; times 1] Z.mul (Some [4]) None). eexists.
  exists (vec [2; 2; 10; 5]%Z). eexists. split; [apply made_diagonal; intro; discriminate|]. split; [reflexivity|]. split; [vm_compute; reflexivity|]. split; [vm_compute; reflexivity|].
  split; vm_compute; reflexivity.
Qed.

Print Assumptions C53_pieces.
Print Assumptions C53_constant_pieces.
Print Assumptions C53_left.
Print Assumptions C53_right.
Print Assumptions C53_sum_partial.
Print Assumptions C53_constant.
Print Assumptions C53_used.
Print Assumptions C53_boundary_refuted.
Print Assumptions C53_stretched_refuted.
Print Assumptions C53_new_axis_refuted.
Print Assumptions C53_declared_refuted.
Print Assumptions C53_sum_column_refuted.
Print Assumptions C53_empty_refuted.
Print Assumptions C53_operation_refuted.
