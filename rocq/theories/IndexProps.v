(** Properties of packing (C22) and of index conversions (C23). *)
From Verif Require Import Base Algebra IndexModel IndexSpec IndexProofs.

(** ** C22 *)

(** Packing keeps, in order, the elements where the mask is True. *)
Theorem C22_pack_keeps {A} (d : A) (data : list bool) (x : list A) :
  data <> [] -> length x = length data -> pack_op data x = Ok (kept d data x).
Proof. intros Hn H. rewrite pack_op_values by auto. f_equal. exact (pack_kept d data x H). Qed.
Print Assumptions C22_pack_keeps.

(** Unpacking puts the k-th packed element at the k-th True position and zero elsewhere. *)
Theorem C22_unpack_places {A} (z : A) (data : list bool) (y : list A) :
  data <> [] -> length y = ntrue data ->
  exists x, unpack_op z data y = Ok x /\ length x = length data /\
  forall i, i < length data -> nth i x z = if nth i data false then nth (rank data i) y z else z.
Proof.
  intros Hn H. exists (unpack z data y). rewrite unpack_op_values by auto.
  split; [reflexivity|split; [exact (unpack_length z data y)|exact (unpack_nth z data y)]].
Qed.
Print Assumptions C22_unpack_places.

(** Each is the transpose of the other, over any commutative ring. *)
Theorem C22_adjoint (K : cring) (data : list bool) (x y : list K) :
  length x = length data -> length y = ntrue data -> ldot (pack data x) y = ldot x (unpack r0 data y).
Proof. exact (pack_adjoint K data x y). Qed.
Print Assumptions C22_adjoint.

(** Packing after unpacking is the identity: the rule 'T,.' of UnpackOperator is right. *)
Theorem C22_pack_unpack {A} (z : A) (data : list bool) (y : list A) :
  length y = ntrue data -> pack data (unpack z data y) = rule_T_unpack y.
Proof. exact (pack_unpack z data y). Qed.
Print Assumptions C22_pack_unpack.

(** Unpacking after packing is masking (with the complement of the mask). *)
Theorem C22_unpack_pack {A} (z : A) (data : list bool) (x : list A) : length x = length data ->
  unpack z data (pack data x) = mask_direct z (map negb data) x.
Proof. exact (unpack_pack z data x). Qed.
Print Assumptions C22_unpack_pack.

(** ... where masking sets to zero the elements for which the mask is True. *)
Theorem C22_mask {A} (z : A) (data : list bool) (x : list A) (i : nat) : length x = length data -> i < length x ->
  nth i (mask_direct z data x) z = if nth i data false then z else nth i x z.
Proof. exact (mask_nth z data x i). Qed.
Print Assumptions C22_mask.

(** FINDING: PackOperator declares the product P.T * P to be the identity (linear.py 903); it is the masking above. *)
Theorem C22_rule_T_refuted : exists (data : list bool) (x : list Z),
  length x = length data /\ unpack 0%Z data (pack data x) <> rule_T_pack x.
Proof. exists [true; false], [1%Z; 2%Z]. split; [reflexivity|discriminate]. Qed.
Print Assumptions C22_rule_T_refuted.

(** Broadcasting to the right packs each column, broadcasting to the left each row. *)
Theorem C22_rightward {A} (z : A) (w : nat) (data : list bool) (x y : list (list A)) (j : nat) :
  map (fun row => nth j row z) (pack_rightward data x) = pack data (map (fun row => nth j row z) x) /\
  map (fun row => nth j row z) (unpack_rightward z w data y) = unpack z data (map (fun row => nth j row z) y).
Proof. exact (conj (pack_rightward_column z data x j) (unpack_rightward_column z w data y j)). Qed.
Print Assumptions C22_rightward.

(** The input and output shapes derived from each other are consistent, and validated, in both directions. *)
Theorem C22_shapes (b : bcast) (n : nat) (dshape shape : list nat) :
  (validate_unpacked b dshape shape = Ok tt ->
     reshape_packed b dshape (reshape_unpacked b n dshape shape) = shape /\
     validate_packed b n (reshape_unpacked b n dshape shape) = Ok tt) /\
  (validate_packed b n shape = Ok tt ->
     reshape_unpacked b n dshape (reshape_packed b dshape shape) = shape /\
     validate_unpacked b dshape (reshape_packed b dshape shape) = Ok tt).
Proof. exact (conj (reshape_inverse b n dshape shape) (reshape_inverse' b n dshape shape)). Qed.
Print Assumptions C22_shapes.

(** FINDING: when all the mask is True the packed array is not a vector but keeps the shape of the mask. *)
Theorem C22_all_true_shape_refuted : exists shape data, length data = fold_right Nat.mul 1 shape /\
  pack_shapeout shape data <> [ntrue data].
Proof. exists [2; 2], [true; true; true; true]. split; [reflexivity|discriminate]. Qed.
Print Assumptions C22_all_true_shape_refuted.

Example C22_case :
  pack_op [false; true; true; false; true] [0; 1; 2; 3; 4]%Z = Ok [1; 2; 4]%Z /\
  unpack_op 0%Z [false; true; true; false; true] [1; 2; 4]%Z = Ok [0; 1; 2; 0; 4]%Z /\
  ntrue [false; true; true; false; true] = 3 /\
  reshape_unpacked Leftward 3 [2; 3] [7; 2; 3] = [7; 3] /\ validate_unpacked Leftward [2; 3] [7; 2; 3] = Ok tt /\
  reshape_packed Rightward [2; 3] [3; 7] = [2; 3; 7] /\ validate_packed Rightward 3 [3; 7] = Ok tt.
Proof. repeat split; reflexivity. Qed.

(** ** C23 *)
Local Open Scope Z_scope.

(** Flat -> multi -> flat is the identity on valid flat indices. *)
Theorem C23_to1d_tond (shape : list Z) (o : order) (k : Z) :
  (2 <= length shape)%nat -> positive shape -> 0 <= k < size shape ->
  exists idx, tond shape o k = Ok idx /\ valid shape idx /\ to1d shape o idx = Ok k.
Proof. exact (to1d_tond shape o k). Qed.
Print Assumptions C23_to1d_tond.

(** Multi -> flat -> multi is the identity on valid multi-indices. *)
Theorem C23_tond_to1d (shape : list Z) (o : order) (idx : list Z) :
  (2 <= length shape)%nat -> valid shape idx ->
  exists k, to1d shape o idx = Ok k /\ 0 <= k < size shape /\ tond shape o k = Ok idx.
Proof. exact (tond_to1d shape o idx). Qed.
Print Assumptions C23_tond_to1d.

(** The flat index is the position at which nested loops visit the multi-index: row-major for 'C' and column-major for
    'F'. *)
Theorem C23_numbering (shape : list Z) (o : order) (idx : list Z) :
  (2 <= length shape)%nat -> valid shape idx ->
  exists k, to1d shape o idx = Ok k /\ nth_error (visit o shape) (Z.to_nat k) = Some idx.
Proof. exact (to1d_visit shape o idx). Qed.
Print Assumptions C23_numbering.

(** (The loops visit each valid multi-index, and as many as there are elements.) *)
Theorem C23_loops (shape : list Z) (o : order) : positive shape ->
  (forall idx, In idx (visit o shape) <-> valid shape idx) /\ Z.of_nat (length (visit o shape)) = size shape.
Proof. exact (fun P => conj (fun idx => visit_all shape o idx P) (visit_length shape o P)). Qed.
Print Assumptions C23_loops.

Example C23_case :
  valid [2; 3] [1; 0] /\ to1d [2; 3] OrderC [1; 0] = Ok 3 /\ to1d [2; 3] OrderF [1; 0] = Ok 1 /\
  visit OrderF [2; 3] = [[0; 0]; [1; 0]; [0; 1]; [1; 1]; [0; 2]; [1; 2]] /\ tond [4; 2; 3] OrderC 10 = Ok [1; 1; 1].
Proof. repeat split; try reflexivity. repeat constructor; lia. Qed.
