(** C34: sums, differences, integrations and dense operators do what they say and have the right transposes. *)
From Coq Require Import QArith Qcanon.
From Verif Require Import Base Algebra Ofield SeqModel SeqSpec BlockModel BlockSpec BlockProofs DiagModel DiagSpec RedModel RedSpec RedProofs DenseModel DenseSpec DenseProofs DftExamples.
Local Open Scope nat_scope.

(** Arrays given by their elements in the C order, for the examples *)
Definition arr {A} (d : A) (s : list nat) (l : list A) : array A := Arr s (fun idx => nth (flat s idx) l d).
Definition Za (s : list nat) (l : list Z) : array Zring := arr (0%Z : Zring) s l.
Definition shown {A} (r : result (array A)) : option (list nat * list A) := match r with Ok y => Some (ashape y, ravel y) | Raise _ => None end.

(** ** SumOperator *)
Section Sum.
Context (K : cring).
Theorem C34_sum z (x : array K) a : position (Axis z) (length (ashape x)) = Some a ->
  exists y, sum_call (Some z) x = Ok y /\ ashape y = remove_at a (ashape x) /\
  forall idx, inside (ashape y) idx -> aval y idx = sum (nth a (ashape x) 0) (fun i => aval x (insert a i idx)).
Proof. intros P. rewrite (sum_call_ok z x a P). eexists. split; [reflexivity|]. split; reflexivity. Qed.
Theorem C34_sum_all (x : array K) : ashape x <> [] -> exists y, sum_call None x = Ok y /\ ashape y = [] /\ aval y [] = lsum (map (aval x) (indices (ashape x))).
Proof.
  intros N. unfold sum_call, red_validatein. destruct (Nat.eqb_spec (length (ashape x)) 0) as [L|_]; [destruct (ashape x); [congruence|discriminate]|]. eexists. split; [reflexivity|]. split; reflexivity.
Qed.
Theorem C34_sum_rejects z (x : array K) : position (Axis z) (length (ashape x)) = None -> exists e, sum_call (Some z) x = Raise e.
Proof. apply sum_call_rejects. Qed.
(** What is missing: the negative axes other than -1, see below. *)
Theorem C34_sum_adjoint_partial axis (x y : array K) :
  match axis with
  | Some z => (z = -1 \/ 0 <= z)%Z /\ exists a, position (Axis z) (length (ashape x)) = Some a /\ ashape y = remove_at a (ashape x)
  | None => ashape x <> [] /\ ashape y = []
  end ->
  exists s t, sum_call axis x = Ok s /\ sum_transpose axis y (ashape x) = Ok t /\ adjoint_on x y s t.
Proof.
  destruct axis as [z|].
  - intros (C & a & P & S). destruct (sum_adjoint z x y a C P S) as (s & t & H1 & H2 & H). exists s, t. auto.
  - intros (N & S). destruct (sum_all_adjoint x y N S) as (s & t & H1 & H2 & H). exists s, t. auto.
Qed.
End Sum.
Example C34_sum_case : position (Axis (-2)) 3 = Some 1 /\ shown (sum_call (Some (-2)%Z) (Za [2; 3; 1] [1; 2; 3; 4; 5; 6]%Z)) = Some ([2; 1], [6; 15]%Z) /\
  shown (sum_transpose (Some (-1)%Z) (Za [2] [1; 2]%Z) [2; 3]) = Some ([2; 3], [1; 1; 1; 2; 2; 2]%Z).
Proof. repeat split. Qed.
(** With a negative axis before the last one, the transpose puts the new axis at the wrong place: it raises, or gives a wrong result. *)
Theorem C34_sum_axis_refuted :
  position (Axis (-2)) 3 = Some 1 /\
  shown (sum_call (Some (-2)%Z) (Za [2; 3; 2] [0; 0; 0; 0; 0; 0; 0; 0; 0; 0; 0; 0]%Z)) = Some ([2; 2], [0; 0; 0; 0]%Z) /\
  sum_transpose (Some (-2)%Z) (Za [2; 2] [1; 2; 3; 4]%Z) [2; 3; 2] = Raise ValueError /\
  exists s t, let x := Za [2; 2; 2] [1; 0; 0; 0; 0; 0; 0; 0]%Z in let y := Za [2; 2] [1; 2; 3; 4]%Z in
  sum_call (Some (-2)%Z) x = Ok s /\ sum_transpose (Some (-2)%Z) y [2; 2; 2] = Ok t /\ ashape s = ashape y /\ ashape t = ashape x /\ inner (K := Zring) s y = 1%Z /\
  ravel t = [1; 2; 3; 4; 1; 2; 3; 4]%Z /\ ravel t <> [1; 2; 1; 2; 3; 4; 3; 4]%Z.
Proof.
  split; [reflexivity|]. split; [reflexivity|]. split; [reflexivity|]. do 2 eexists. cbv zeta. split; [reflexivity|]. split; [reflexivity|]. split; [reflexivity|]. split; [reflexivity|]. split; [vm_compute; reflexivity|]. split; [vm_compute; reflexivity|]. vm_compute. discriminate.
Qed.

(** ** DifferenceOperator *)
Section Difference.
Context (K : cring).
Theorem C34_difference z (x : array K) u n v : ashape x = u ++ n :: v -> position (Axis z) (length (ashape x)) = Some (length u) ->
  exists d, diff_call z x = Ok d /\ ashape d = u ++ (n - 1) :: v /\
  forall i j l, inside u i -> S j < n -> inside v l -> aval d (i ++ j :: l) = rsub (aval x (i ++ S j :: l)) (aval x (i ++ j :: l)).
Proof. intros S P. destruct (diff_call_ok z x u n v S P) as (d & H1 & H2 & H3). exists d. split; [exact H1|]. split; [exact H2|]. intros i j l Hi _ _. apply H3, inside_length, Hi. Qed.
(** if the elements are not changed by the conversion to double precision numbers *)
Theorem C34_difference_adjoint cast z (x y : array K) a : (forall idx, inside (ashape y) idx -> cast (aval y idx) = aval y idx) -> position (Axis z) (length (ashape x)) = Some a ->
  0 < nth a (ashape x) 0 -> ashape y = set_nth (ashape x) a (nth a (ashape x) 0 - 1) ->
  exists s t, diff_call z x = Ok s /\ diff_transpose cast z y = Ok t /\ adjoint_on x y s t.
Proof. intros C P N S. destruct (diff_adjoint cast z x y a C P N S) as (s & t & H1 & H2 & H). exists s, t. auto. Qed.
End Difference.
Example C34_difference_case : shown (diff_call (-2) (Za [3; 2] [1; 2; 4; 8; 16; 32]%Z)) = Some ([2; 2], [3; 6; 12; 24]%Z) /\
  shown (diff_transpose (fun v => v) 0 (Za [2; 2] [1; 2; 5; 7]%Z)) = Some ([3; 2], [-1; -2; -4; -5; 5; 7]%Z).
Proof. split; vm_compute; reflexivity. Qed.
(** The imaginary part is lost by the transpose (here of the array of the only element i). *)
Theorem C34_difference_complex_refuted : let real (v : GQring) : GQring := (fst v, 0%Qc) in let i : GQring := (0%Qc, 1%Qc) in
  exists t, diff_transpose real 0 (Arr [1] (fun _ => i)) = Ok t /\ this (snd (aval t [0])) = 0%Q /\ this (snd (@ropp GQring i)) = (-1#1)%Q.
Proof.
  cbv zeta. set (real := fun v : GQring => ((fst v, 0%Qc) : GQring)). set (y := Arr [1] (fun _ => ((0%Qc, 1%Qc) : GQring))).
  assert (exists t, diff_transpose real 0 y = Ok t) as [t E] by (eexists; reflexivity). exists t. split; [exact E|]. split; [|vm_compute; reflexivity].
  assert (match diff_transpose real 0 y with Ok t => this (snd (aval t [0])) | Raise _ => 1%Q end = 0%Q) as V by (vm_compute; reflexivity). rewrite E in V. exact V.
Qed.

(** ** IntegrationTrapezeOperator *)
Section Trapeze.
Context (K : ofield).
Theorem C34_trapeze (x : list K) z (f out : array K) a : 2 <= length x -> monotonic x ->
  position (NewAxis z) (length (ashape f)) = Some a -> nth a (ashape f) 0 = length x -> ashape out = remove_at a (ashape f) ->
  exists r, trapeze (fun v => v) x z f out = Ok r /\ ashape r = ashape out /\
  forall idx, inside (ashape out) idx -> aval r idx = trapezoids x (fun i => aval f (insert a i idx)).
Proof.
  intros L M P N S. destruct (trapeze_ok (fun v => v) x z f out a L M (fun _ _ => eq_refl) P N S) as (r & E & Sr & V). exists r. split; [exact E|]. split; [exact Sr|].
  intros idx I. rewrite (V idx I). apply sum_ext. intros i _. apply half_div.
Qed.
Theorem C34_trapeze_rejects cast (x : list K) z (f out : array K) : ~ (2 <= length x /\ monotonic x) -> trapeze cast x z f out = Raise ValueError.
Proof. intros N. unfold trapeze. rewrite weights_rejects by exact N. reflexivity. Qed.
End Trapeze.
Definition qz (z : Z) : Qc := Q2Qc (inject_Z z).
Definition trunc (q : Qc) : Qc := qz (Z.quot (Qnum (this q)) (Zpos (Qden (this q)))).
Example C34_trapeze_case : match trapeze (K := Qf) (fun v => v) [qz 0; qz 1; qz 3] 0 (arr (0%Qc : Qf) [3; 2] [qz 1; qz 0; qz 1; qz 2; qz 1; qz 4]) (arr (0%Qc : Qf) [2] []) with
  Ok r => map (fun q : Qc => this q) (ravel r) | Raise _ => [] end = [3#1; 7#1]%Q /\ position (NewAxis 0) 2 = Some 0.
Proof. split; vm_compute; reflexivity. Qed.
Example C34_trapeze_increasing : monotonic (K := Qf) [qz 0; qz 1; qz 3].
Proof. left. intros [|[|i]] H; cbn in H; try lia; vm_compute; reflexivity. Qed.
(** With integer abscissae, the weights 1/2, 3/2 and 1 are truncated: the integral of the function 1 from 0 to 3 is found to be 2. *)
Theorem C34_trapeze_integer_refuted : let x : list Qf := [qz 0; qz 1; qz 3] in
  exists r, trapeze (K := Qf) trunc x 0 (Arr [3] (fun _ => qz 1)) (Arr [] (fun _ => qz 0)) = Ok r /\ this (aval r []) = (2#1)%Q /\ this (trapezoids x (fun _ => qz 1)) = (3#1)%Q.
Proof.
  cbv zeta. assert (exists r, trapeze (K := Qf) trunc [qz 0; qz 1; qz 3] 0 (Arr [3] (fun _ => qz 1)) (Arr [] (fun _ => qz 0)) = Ok r) as [r E] by (vm_compute; eexists; reflexivity).
  exists r. split; [exact E|]. split; [|vm_compute; reflexivity].
  assert (match trapeze (K := Qf) trunc [qz 0; qz 1; qz 3] 0 (Arr [3] (fun _ => qz 1)) (Arr [] (fun _ => qz 0)) with Ok r => this (aval r []) | Raise _ => 0%Q end = (2#1)%Q) as V by (vm_compute; reflexivity).
  rewrite E in V. exact V.
Qed.

(** ** Dense operators *)
Section Dense.
Context (K : cring).
(** The axes of the data are the extra axes, the output axes and the input axes. *)
Theorem C34_dense_axes (data : array K) sl sm sn b : ashape data = sl ++ sm ++ sn -> 1 <= length sm -> 1 <= length sn ->
  exists op, block_diagonal data None (Some (length sn)) (Some (length sm)) b = Ok op /\ blocks op sl sm sn /\ d_data op = data /\ d_bcast op = b /\
  (length sm = length sn -> block_diagonal data (Some (length sn)) None None b = Ok op) /\
  (sl = [] -> dense_operator data None (Some (length sn)) None b = Ok op /\ dense_operator data None None (Some (length sm)) b = Ok op).
Proof.
  intros S Lm Ln. destruct (block_diagonal_ok data sl sm sn b S Lm Ln) as (op & E & B & Dt & Eb & _). exists op. repeat (split; [assumption|]). split.
  - intros L. rewrite <- E. unfold block_diagonal, make_axes. assert (length (ashape data) = length sl + length sm + length sn) as Ld by (rewrite S, !app_length; lia).
    destruct (Nat.ltb_spec (length sn) 1); [lia|]. destruct (Nat.ltb_spec (length (ashape data)) (2 * length sn)); [lia|]. cbn [orb rbind]. rewrite L. reflexivity.
  - intros ->. cbn [app] in S. assert (length (ashape data) = length sm + length sn) as Ld by (rewrite S, !app_length; lia).
    assert (op = D data (length sn) (length sm) 0 b Dense) as ->.
    { unfold block_diagonal in E. rewrite make_axes_ok in E by lia. cbn [rbind] in E. replace (length (ashape data) - length sn - length sm) with 0 in E by lia. injection E as <-. reflexivity. }
    unfold dense_operator, make_axes. cbn [orb]. destruct (Nat.ltb_spec (length sn) 1); [lia|]. destruct (Nat.leb_spec (length (ashape data)) (length sn)); [lia|].
    destruct (Nat.ltb_spec (length sm) 1); [lia|]. destruct (Nat.leb_spec (length (ashape data)) (length sm)); [lia|]. cbn [orb rbind].
    replace (length (ashape data) - 0 - length sn) with (length sm) by lia. replace (length (ashape data) - 0 - length sm) with (length sn) by lia.
    replace (length sn + length sm + 0) with (length (ashape data)) by lia. rewrite Nat.eqb_refl. auto.
Qed.
(** y = A x, block by block *)
Theorem C34_dense (op : dense K) sl sm sn (x : array K) p q r : blocks op sl sm sn -> batched (d_bcast op) (d_extra op) p q -> ashape x = p ++ sn ++ q -> common sl p r ->
  exists y, call op x = Ok y /\ is_image (d_data op) sl sm sn p q r x y.
Proof. apply call_ok. Qed.
(** No other array is accepted. *)
Theorem C34_dense_rejects (op : dense K) sl sm sn (x y : array K) : blocks op sl sm sn -> call op x = Ok y ->
  exists p q r, batched (d_bcast op) (d_extra op) p q /\ common sl p r /\ is_image (d_data op) sl sm sn p q r x y.
Proof. intros B H. destruct (call_inv op sl sm sn x y B H) as (p & q & r & Q & _ & C & I). exists p, q, r. auto. Qed.
(** The transpose is the adjoint, for the inputs which have all the blocks (which are not broadcast). *)
Theorem C34_dense_adjoint (op : dense K) sl sm sn p q (x z : array K) : blocks op sl sm sn -> batched (d_bcast op) (d_extra op) p q -> fits Leftward sl p ->
  ashape x = p ++ sn ++ q -> ashape z = p ++ sm ++ q ->
  exists op' y t, rule_T op = Ok op' /\ call op x = Ok y /\ call op' z = Ok t /\ adjoint_on x z y t.
Proof. intros B Q F Sx Sz. destruct (dense_adjoint op sl sm sn p q x z B Q F Sx Sz) as (op' & y & t & H1 & H2 & H3 & H). exists op', y, t. auto. Qed.
(** The operator that replaces a product *)
Theorem C34_dense_product (op1 op2 : dense K) sl1 sm1 sn1 sl2 sm2 sn2 (x y z : array K) : blocks op1 sl1 sm1 sn1 -> blocks op2 sl2 sm2 sn2 -> sn1 = sm2 ->
  d_bcast op1 = d_bcast op2 -> (d_bcast op1 = Leftward \/ length sl1 = length sl2) -> call op2 x = Ok y -> call op1 y = Ok z ->
  exists op t, rule_mul op1 op2 = Ok op /\ call op x = Ok t /\ aeq t z.
Proof. apply product_call. Qed.
(** The operator that replaces the product by a scalar.  What is missing: the other broadcasts and the rotations, see below. *)
Theorem C34_dense_scaled_partial cs (op : dense K) sl sm sn c (x y : array K) : blocks op sl sm sn -> d_bcast op = Leftward -> (d_class op = Dense \/ d_class op = BlockDiagonal) -> call op x = Ok y ->
  exists op' z, rule_homothety cs op c = Ok op' /\ call op' x = Ok z /\ ashape z = ashape y /\ forall idx, inside (ashape y) idx -> aval z idx = rmul c (aval y idx).
Proof. apply dense_scaled. Qed.
End Dense.

(** Two blocks of 2 x 3 matrices *)
Definition ex_data : array Zring := Za [2; 2; 3] [1; 2; 3; 4; 5; 6; 7; 8; 9; 10; 11; 12]%Z.
Definition ex_op b : dense Zring := D ex_data 1 1 1 b BlockDiagonal.
Example C34_dense_case : blocks (ex_op Leftward) [2] [2] [3] /\ batched Leftward 1 [2; 2] [] /\ common [2] [1] [2] /\
  shown (call (ex_op Leftward) (Za [3] [1; 0; 2]%Z)) = Some ([2; 2], [7; 16; 25; 34]%Z) /\
  shown (call (ex_op Rightward) (Za [2; 3; 2] [1; 0; 0; 1; 0; 0; 1; 0; 0; 0; 0; 1]%Z)) = Some ([2; 2; 2], [1; 2; 4; 5; 7; 9; 10; 12]%Z) /\
  (exists o, rule_T (ex_op Leftward) = Ok o /\ ashape (d_data o) = [2; 3; 2] /\ ravel (d_data o) = [1; 4; 2; 5; 3; 6; 7; 10; 8; 11; 9; 12]%Z).
Proof.
  split; [repeat split; try (cbn; lia); discriminate|]. split; [reflexivity|]. split; [apply bs_common; reflexivity|]. split; [vm_compute; reflexivity|]. split; [vm_compute; reflexivity|].
  eexists. split; [reflexivity|]. split; reflexivity.
Qed.
Definition sq l b : dense Zring := D (Za [2; 2] l) 1 1 0 b Dense.
(** The product of a leftward by a rightward operator becomes a rightward one, which is something else. *)
Theorem C34_dense_product_refuted : let a := sq [0; 1; 0; 0]%Z Leftward in let b := sq [1; 0; 0; 1]%Z Rightward in let x := Za [2; 2] [1; 2; 3; 4]%Z in
  exists y o, call b x = Ok y /\ rule_mul a b = Ok o /\ shown (call a y) = Some ([2; 2], [2; 0; 4; 0]%Z) /\ shown (call o x) = Some ([2; 2], [3; 4; 0; 0]%Z).
Proof. cbv zeta. do 2 eexists. split; [reflexivity|]. split; [reflexivity|]. split; vm_compute; reflexivity. Qed.
(** So does the product of rightward operators with different numbers of extra axes. *)
Theorem C34_dense_product_extra_refuted : let a := sq [0; 1; 0; 0]%Z Rightward in let b := D (Za [2; 2; 2] [1; 0; 0; 1; 1; 0; 0; 1]%Z) 1 1 1 Rightward BlockDiagonal in let x := Za [2; 2] [1; 2; 3; 4]%Z in
  exists y o, call b x = Ok y /\ rule_mul a b = Ok o /\ shown (call a y) = Some ([2; 2], [3; 4; 0; 0]%Z) /\ shown (call o x) = Some ([2; 2], [2; 0; 4; 0]%Z).
Proof. cbv zeta. do 2 eexists. split; [reflexivity|]. split; [reflexivity|]. split; vm_compute; reflexivity. Qed.
(** The product by a scalar forgets that the broadcast is rightward. *)
Theorem C34_dense_scaled_refuted : let a := sq [0; 1; 0; 0]%Z Rightward in let x := Za [2; 2] [1; 2; 3; 4]%Z in
  shown (call a x) = Some ([2; 2], [3; 4; 0; 0]%Z) /\
  exists o, rule_homothety (fun v => (v, v)) a 2%Z = Ok o /\ shown (call o x) = Some ([2; 2], [4; 0; 8; 0]%Z).
Proof. cbv zeta. split; [vm_compute; reflexivity|]. eexists. split; [reflexivity|]. vm_compute. reflexivity. Qed.
(** Several rotations by 0 times a scalar: the matrices are taken for angles, and a vector becomes an array of 4 dimensions. *)
Theorem C34_rotation_scaled_refuted : let cs (v : Zring) : Zring * Zring := (1%Z, v) in
  exists r o, rotation2d cs (Za [3] [0; 0; 0]%Z) = Ok r /\ shown (call r (Za [2] [5; 7]%Z)) = Some ([3; 2], [5; 7; 5; 7; 5; 7]%Z) /\
  rule_homothety cs r 2%Z = Ok o /\ match shown (call o (Za [2] [5; 7]%Z)) with Some (s, _) => s = [3; 2; 2; 2] | None => False end.
Proof. cbv zeta. do 2 eexists. split; [reflexivity|]. split; [vm_compute; reflexivity|]. split; [reflexivity|]. vm_compute. reflexivity. Qed.
(** If the input is broadcast, the transpose does not sum over the blocks. *)
Theorem C34_dense_stretched_refuted : exists o y t, let x := Za [3] [1; 0; 2]%Z in rule_T (ex_op Leftward) = Ok o /\
  call (ex_op Leftward) x = Ok y /\ call o y = Ok t /\ ashape y = [2; 2] /\ ashape t = [2; 3] /\ ashape t <> ashape x.
Proof. do 3 eexists. cbv zeta. split; [reflexivity|]. split; [reflexivity|]. split; [reflexivity|]. split; [reflexivity|]. split; [reflexivity|]. discriminate. Qed.

Print Assumptions C34_sum. Print Assumptions C34_sum_all. Print Assumptions C34_sum_rejects. Print Assumptions C34_sum_adjoint_partial. Print Assumptions C34_sum_axis_refuted.
Print Assumptions C34_difference. Print Assumptions C34_difference_adjoint. Print Assumptions C34_difference_complex_refuted.
Print Assumptions C34_trapeze. Print Assumptions C34_trapeze_rejects. Print Assumptions C34_trapeze_integer_refuted.
Print Assumptions C34_dense_axes. Print Assumptions C34_dense. Print Assumptions C34_dense_rejects. Print Assumptions C34_dense_adjoint. Print Assumptions C34_dense_product. Print Assumptions C34_dense_scaled_partial.
Print Assumptions C34_dense_product_refuted. Print Assumptions C34_dense_product_extra_refuted. Print Assumptions C34_dense_scaled_refuted. Print Assumptions C34_rotation_scaled_refuted. Print Assumptions C34_dense_stretched_refuted.
