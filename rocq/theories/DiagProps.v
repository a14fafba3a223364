(** C20, C21: diagonal and constant operators. *)
From Coq Require Import QArith Qcanon.
From Verif Require Import Base Algebra SeqModel BlockModel BlockSpec BlockProofs DiagModel DiagRulesModel DiagSpec DiagProofs DiagRules.
Local Open Scope nat_scope.

Definition ZD : dring := {| dcar := Zring; deq := Z.eqb; deq_ok := Z.eqb_eq |}.
Definition vec (l : list Z) : array ZD := Arr [length l] (fun i => nth (nth 0 i 0) l 0%Z).
Definition mat (n m : nat) (l : list Z) : array ZD := Arr [n; m] (fun i => nth (nth 0 i 0 * m + nth 1 i 0) l 0%Z).
Definition elements (r : result (array ZD)) : option (list nat * list Z) := match r with Ok a => Some (ashape a, ravel a) | Raise _ => None end.

(** ** C20 *)

(** inspect_special_values counts the values -1, 0 and 1 if there are no others, and tells whether the values are equal. *)
Theorem C20_inspect : forall (K : dring), (r1 : K) <> r0 -> ropp (r1 : K) <> r0 -> ropp (r1 : K) <> r1 -> forall (v0 : K) v', let v := v0 :: v' in
  ((forall x, In x v -> x = r0 \/ x = r1 \/ x = ropp r1) ->
     inspect v = (occurrences (ropp r1) v, occurrences r0 v, occurrences r1 v, false, forallb (fun x => deq x v0) v)) /\
  ((exists x, In x v /\ x <> r0 /\ x <> r1 /\ x <> ropp r1) -> inspect v = (0, 0, 0, true, forallb (fun x => deq x v0) v)).
Proof. intros K A B C v0 v'. apply inspect_exact; auto. Qed.
Example C20_inspect_example : inspect (K := ZD) [0%Z; (-1)%Z; (-1)%Z] = (2, 1, 0, false, false) /\ inspect (K := ZD) [2%Z; 2%Z; 2%Z] = (0, 0, 0, true, true).
Proof. vm_compute. auto. Qed.

(** A DiagonalOperator, whatever it has become, multiplies each element by the coefficient facing it. *)
Theorem C20_diagonal : forall (K : dring) (data : array K) b x, fits b (ashape data) (ashape x) ->
  exists y, apply (diagonal data b) x = Ok y /\ elementwise (fun idx v => rmul (coefficient b data idx) v) x y.
Proof. intros K. apply apply_diagonal. Qed.
Example C20_diagonal_example :
  elements (apply (diagonal (vec [2; 3]%Z) Rightward) (mat 2 3 [1; 2; 3; 4; 5; 6]%Z)) = Some ([2; 3], [2; 4; 6; 12; 15; 18]%Z) /\
  elements (apply (diagonal (vec [1; 0]%Z) Rightward) (mat 2 3 [1; 2; 3; 4; 5; 6]%Z)) = Some ([2; 3], [1; 2; 3; 0; 0; 0]%Z) /\
  elements (apply (diagonal (vec [7; 7]%Z) Leftward) (mat 1 2 [1; 2]%Z)) = Some ([1; 2], [7; 14]%Z).
Proof. vm_compute. auto. Qed.

(** A MaskOperator sets the masked elements to zero and leaves the others. *)
Theorem C20_mask : forall (K : dring) m b sh (x : array K), fits b (ashape m) (ashape x) -> sh = None \/ sh = Some (ashape x) ->
  exists y, apply (mask m b sh) x = Ok y /\ elementwise (fun idx v => if coefficient b m idx then r0 else v) x y.
Proof. intros K. apply apply_mask. Qed.
Definition bvec (l : list bool) : array bool := Arr [length l] (fun i => nth (nth 0 i 0) l false).
Example C20_mask_example : elements (apply (mask (bvec [true; false; true]) Leftward None) (mat 2 3 [1; 2; 3; 4; 5; 6]%Z)) = Some ([2; 3], [0; 2; 0; 0; 5; 0]%Z).
Proof. vm_compute. auto. Qed.

(** A HomothetyOperator multiplies by its scalar; made from an array, it requires equal values. *)
Theorem C20_homothety : forall (K : dring) (c : K) sh x, sh = None \/ sh = Some (ashape x) ->
  exists y, apply (homothety c sh) x = Ok y /\ elementwise (fun _ v => rmul c v) x y.
Proof.
  intros K c sh x S. destruct (apply_homothety c sh x S) as (y & E & Y). exists y. split; [exact E|]. eapply elementwise_ext; [exact Y|].
  intros idx _. apply rmul_comm.
Qed.
Theorem C20_homothety_array : forall (K : dring) (data : array K) sh, ravel data <> [] ->
  (forall c, (forall x, In x (ravel data) -> x = c) -> homothety_array data sh = Ok (homothety c sh)) /\
  (forall x y, In x (ravel data) -> In y (ravel data) -> x <> y -> homothety_array data sh = Raise ValueError).
Proof.
  intros K data sh NE. unfold homothety_array. destruct (ashape data) as [|n s] eqn:Es.
  - unfold ravel in *. rewrite Es in *. cbn in *. split.
    + intros c H. rewrite (H _ (or_introl eq_refl)). reflexivity.
    + intros x y [<-|[]] [<-|[]]. congruence.
  - destruct (ravel data) as [|c0 v] eqn:Er; [congruence|]. split.
    + intros c H. assert (existsb (fun x => negb (deq c0 x)) (c0 :: v) = false) as ->.
      { apply not_true_is_false. intros (x & Hx & E)%existsb_exists. rewrite (H x Hx), (H c0 (or_introl eq_refl)), deq_refl in E. discriminate. }
      rewrite (H c0 (or_introl eq_refl)). reflexivity.
    + intros x y Hx Hy N. assert (existsb (fun x => negb (deq c0 x)) (c0 :: v) = true) as ->; [|reflexivity].
      apply existsb_exists. destruct (deq c0 x) eqn:E.
      * apply deq_true in E. subst x. exists y. split; [auto|]. destruct (deq c0 y) eqn:E; auto. apply deq_true in E. congruence.
      * exists x. rewrite E. auto.
Qed.
Example C20_homothety_example : elements (apply (homothety (K := ZD) (-1)%Z None) (vec [3; 4]%Z)) = Some ([2], [-3; -4]%Z) /\
  homothety_array (vec [3; 4]%Z) None = Raise ValueError.
Proof. vm_compute. auto. Qed.

(** A ConstantOperator assigns the coefficient facing each element of the output. *)
Theorem C20_constant : forall (K : dring) (d : array K) b out, fits b (ashape d) out -> ravel d <> [] ->
  exists k y, constant d b = Ok k /\ constant_apply k out = Ok y /\ ashape y = out /\ forall idx, inside out idx -> aval y idx = coefficient b d idx.
Proof. intros K. apply constant_ok. Qed.
Example C20_constant_example : elements (k <- constant (vec [2; 3]%Z) Rightward ;; constant_apply k [2; 2]) = Some ([2; 2], [2; 2; 3; 3]%Z).
Proof. vm_compute. auto. Qed.
(** Finding: it cannot be made from an array without elements. *)
Theorem C20_constant_empty_refuted : exists (d : array ZD), ashape d = [0] /\ constant d Disabled = Raise IndexError.
Proof. exists (vec []). vm_compute. auto. Qed.

(** The kind of operator that is obtained. *)
Theorem C20_kind : forall (K : dring), (r1 : K) <> r0 -> ropp (r1 : K) <> r0 -> ropp (r1 : K) <> r1 -> forall (data : array K) b, ravel data <> [] ->
  ((forall x, In x (ravel data) -> x = r0) -> d_class (diagonal data b) = Zero) /\
  ((forall x, In x (ravel data) -> x = r1) -> d_class (diagonal data b) = Identity) /\
  (forall c, c <> r0 -> c <> r1 -> (forall x, In x (ravel data) -> x = c) -> d_class (diagonal data b) = Homothety c) /\
  ((forall x, In x (ravel data) -> x = r0 \/ x = r1) -> In r0 (ravel data) -> In r1 (ravel data) -> exists m b', d_class (diagonal data b) = Mask m b') /\
  ((forall x, In x (ravel data) -> x = r1 \/ x = ropp r1) -> d_inv (diagonal data b) = true).
Proof. intros K. apply kind. Qed.
Example C20_kind_example : d_class (diagonal (vec [0; 0]%Z) Leftward) = Zero /\ d_class (diagonal (vec [4; 4]%Z) Leftward) = Homothety (K := ZD) 4%Z /\
  d_class (diagonal (vec [1; 1]%Z) Disabled) = Identity /\ d_inv (diagonal (vec [1; -1]%Z) Leftward) = true.
Proof. vm_compute. auto. Qed.

(** An operator that does not broadcast, or that has kept its coefficients, refuses the arrays that they do not fit. *)
Theorem C20_rejects : forall (K : dring) (data : array K) b x, ~ fits b (ashape data) (ashape x) ->
  (b = Disabled \/ (exists d' b', d_class (diagonal data b) = Diagonal d' b') \/ (exists m' b', d_class (diagonal data b) = Mask m' b')) ->
  apply (diagonal data b) x = Raise ValueError.
Proof. intros K. apply diagonal_rejects. Qed.
Example C20_rejects_example : elements (apply (diagonal (vec [2; 3]%Z) Leftward) (mat 2 3 [1; 2; 3; 4; 5; 6]%Z)) = None /\
  elements (apply (diagonal (vec [7; 7]%Z) Disabled) (mat 1 2 [1; 2]%Z)) = None.
Proof. vm_compute. auto. Qed.
(** Finding: otherwise, the shape of the data is forgotten and any array is accepted. *)
Theorem C20_unfit_refuted : exists (data x : array ZD) y, ~ fits Leftward (ashape data) (ashape x) /\ apply (diagonal data Leftward) x = Ok y.
Proof.
  exists (vec [7; 7; 7]%Z), (vec [1; 2]%Z). eexists. split; [cbn; lia|]. vm_compute. reflexivity.
Qed.

(** Flags: an operator flagged involutary is its own inverse; masks are idempotent. *)
Theorem C20_involutary : forall (K : dring) (data : array K) b x, d_inv (diagonal data b) = true -> fits b (ashape data) (ashape x) ->
  exists y z, apply (diagonal data b) x = Ok y /\ apply (diagonal data b) y = Ok z /\ aeq z x.
Proof. intros K. apply twice. Qed.
Theorem C20_idempotent : forall (K : dring) m b (x : array K), fits b (ashape m) (ashape x) ->
  exists y z, apply (mask m b None) x = Ok y /\ apply (mask m b None) y = Ok z /\ aeq z y.
Proof. intros K. apply mask_twice. Qed.
Example C20_involutary_example : d_inv (diagonal (vec [1; -1; -1]%Z) Disabled) = true /\ d_inv (diagonal (vec [1; -1; 0]%Z) Disabled) = false.
Proof. vm_compute. auto. Qed.

(** The inverse undoes the operator when no coefficient is zero. *)
Theorem C20_inverse : forall (K : dring) (div : K -> K -> K), (r1 : K) <> r0 -> (forall a c, c <> r0 -> rmul (div a c) c = a) ->
  forall (data : array K) b x, fits b (ashape data) (ashape x) -> (forall c, In c (ravel data) -> c <> r0) -> ravel data <> [] ->
  exists y z, apply_inverse div (diagonal data b) x = Ok y /\ apply (diagonal data b) y = Ok z /\ aeq z x.
Proof. intros K. apply inverse_ok. Qed.
Definition Qcring : cring := {| car := Qc; r0 := 0%Qc; r1 := 1%Qc; radd := Qcplus; rmul := Qcmult; rsub := Qcminus; ropp := Qcopp; rth := Qcrt |}.
Lemma Qc_eq_bool_iff x y : Qc_eq_bool x y = true <-> x = y.
Proof. split; [apply Qc_eq_bool_correct|]. intros ->. unfold Qc_eq_bool. destruct (Qc_eq_dec y y); congruence. Qed.
Definition QD : dring := {| dcar := Qcring; deq := Qc_eq_bool; deq_ok := Qc_eq_bool_iff |}.
Definition qvec (l : list Qc) : array QD := Arr [length l] (fun i => nth (nth 0 i 0) l 0%Qc).
Example C20_inverse_example : (r1 : QD) <> r0 /\ (forall a c : QD, c <> r0 -> rmul (Qcdiv a c : QD) c = a) /\
  (forall c, In c (ravel (qvec [Q2Qc 2; Q2Qc (-1); Q2Qc (1 # 3)%Q])) -> c <> r0) /\ fits Leftward (ashape (qvec [Q2Qc 2; Q2Qc (-1); Q2Qc (1 # 3)%Q])) [4; 3] /\
  match apply_inverse (K := QD) Qcdiv (diagonal (qvec [Q2Qc 2; Q2Qc (-1); Q2Qc (1 # 3)%Q]) Disabled) (qvec [Q2Qc 1; Q2Qc 1; Q2Qc 1]) with Ok y => ravel y | _ => [] end = [Q2Qc (1 # 2)%Q; Q2Qc (-1); Q2Qc 3].
Proof.
  split; [discriminate|]. split. { intros a c N. change (Qcdiv a c * c = a)%Qc. field. exact N. }
  split. { intros c H. repeat (destruct H as [<-|H]; [discriminate|]). destruct H. } split; [cbn; auto|]. vm_compute. reflexivity.
Qed.

(** ** C21 *)

(** The product of two diagonal operators, simplified on their data, is the one operator after the other. *)
Theorem C21_compose : forall (K : dring) (op1 op2 : diag K) r x y z, made op1 -> made op2 -> compose_rule op1 op2 = Some r ->
  apply op2 x = Ok y -> apply op1 y = Ok z -> exists op z', r = Ok op /\ made op /\ apply op x = Ok z' /\ aeq z' z.
Proof. intros K. apply compose_sound. Qed.
Definition after (r : option (result (diag ZD))) (x : array ZD) : option (list nat * list Z) :=
  match r with Some (Ok op) => elements (apply op x) | _ => None end.
Example C21_compose_example :
  after (compose_rule (diagonal (vec [2; 3]%Z) Rightward) (diagonal (mat 2 3 [1; 0; 1; 0; 1; 0]%Z) Disabled)) (mat 2 3 [1; 2; 3; 4; 5; 6]%Z) = Some ([2; 3], [2; 0; 6; 0; 15; 0]%Z) /\
  after (compose_rule (diagonal (vec [2; 3]%Z) Leftward) (diagonal (vec [2; 3]%Z) Rightward)) (mat 2 2 [1; 2; 3; 4]%Z) = None.
Proof. vm_compute. auto. Qed.

(** The sum of two diagonal operators, not both masks. *)
Theorem C21_sum : forall (K : dring) (op1 op2 : diag K) r x y1 y2, made op1 -> made op2 ->
  ~ ((exists m b, d_class op1 = Mask m b) /\ (exists m b, d_class op2 = Mask m b)) -> sum_rule op1 op2 = Some r ->
  apply op1 x = Ok y1 -> apply op2 x = Ok y2 -> exists op z, r = Ok op /\ made op /\ apply op x = Ok z /\ combines radd y1 y2 z.
Proof. intros K. apply sum_sound. Qed.
Example C21_sum_example :
  after (sum_rule (diagonal (vec [2; 3]%Z) Leftward) (diagonal (vec [1; 0]%Z) Leftward)) (mat 2 2 [1; 2; 3; 4]%Z) = Some ([2; 2], [3; 6; 9; 12]%Z).
Proof. vm_compute. auto. Qed.
(** Finding: the data of masks are booleans, and their sum is the logical or: M + M is M. *)
Theorem C21_sum_masks_refuted : exists (op : diag ZD) r x y z, made op /\ sum_rule op op = Some (Ok r) /\ apply op x = Ok y /\ apply r x = Ok z /\ ~ combines radd y y z.
Proof.
  exists (mask (bvec [true; false]) Disabled None). eexists. exists (vec [1; 1]%Z). eexists. eexists.
  split; [apply made_mask; discriminate|]. split; [vm_compute; reflexivity|]. split; [vm_compute; reflexivity|]. split; [vm_compute; reflexivity|].
  intros (_ & _ & H). specialize (H [1]). vm_compute in H. assert (inside [2] [1]) by (constructor; [lia|constructor]). apply H in H0. discriminate.
Qed.
(** Finding: data with dimensions may be declared 'scalar'; they are then aligned with the first dimension of a rightward
    operator instead of the last one of the array. *)
Theorem C21_scalar_refuted : exists (op1 op2 r : diag ZD) x y z z', op1 = diagonal (vec [2; 3]%Z) Scalar /\ made op2 /\
  compose_rule op1 op2 = Some (Ok r) /\ apply op2 x = Ok y /\ apply op1 y = Ok z /\ apply r x = Ok z' /\ ~ aeq z' z.
Proof.
  exists (diagonal (vec [2; 3]%Z) Scalar), (diagonal (vec [5; 7]%Z) Rightward). eexists. exists (mat 2 2 [1; 1; 1; 1]%Z). eexists. eexists. eexists.
  split; [reflexivity|]. split; [apply made_diagonal; discriminate|]. do 4 (split; [vm_compute; reflexivity|]).
  intros (_ & H). specialize (H [0; 1]). vm_compute in H. assert (inside [2; 2] [0; 1]) by (repeat constructor). apply H in H0. discriminate.
Qed.

(** The element-wise product of two diagonal operators: the square of the input multiplied by a constant. *)
Theorem C21_multiply_partial : forall (K : dring) (op1 op2 : diag K) r x y1 y2 idx0, made op1 -> made op2 -> multiply_rule op1 op2 = Some r ->
  (forall g1 g2 b1 b2, get_data op1 = Some (g1, b1) -> get_data op2 = Some (g2, b2) -> ~ ((b1 = Disabled /\ b2 = Rightward) \/ (b1 = Rightward /\ b2 = Disabled))) ->
  apply op1 x = Ok y1 -> apply op2 x = Ok y2 -> inside (ashape x) idx0 ->
  exists d b k c, r = Ok (d, b) /\ constant (nums d) b = Ok k /\ constant_apply k (ashape x) = Ok c /\
    ashape c = ashape x /\ forall idx, inside (ashape x) idx -> rmul (aval c idx) (rmul (aval x idx) (aval x idx)) = rmul (aval y1 idx) (aval y2 idx).
Proof. intros K. apply multiply_sound. Qed.
Example C21_multiply_example : exists d, multiply_rule (diagonal (vec [2; 3]%Z) Rightward) (diagonal (vec [5; 7]%Z) Rightward) = Some (Ok (Nums d, Rightward)) /\ ravel d = [10; 21]%Z.
Proof. eexists. split; vm_compute; reflexivity. Qed.
(** Finding: the missing case.  b has become a string when 'rightward' is looked for, so that a rightward operator is
    broadcast leftward when the other one does not broadcast. *)
Theorem C21_multiply_refuted : exists (op1 op2 : diag ZD) d b k x y1 y2 c idx, made op1 /\ made op2 /\ multiply_rule op1 op2 = Some (Ok (d, b)) /\
  apply op1 x = Ok y1 /\ apply op2 x = Ok y2 /\ constant (nums d) b = Ok k /\ constant_apply k (ashape x) = Ok c /\ inside (ashape x) idx /\
  rmul (aval c idx) (rmul (aval x idx) (aval x idx)) <> rmul (aval y1 idx) (aval y2 idx).
Proof.
  exists (diagonal (vec [2; 3]%Z) Rightward), (diagonal (mat 2 2 [1; 2; 3; 4]%Z) Disabled). eexists. eexists. eexists. exists (mat 2 2 [1; 1; 1; 1]%Z). eexists. eexists. eexists. exists [0; 1].
  split; [apply made_diagonal; discriminate|]. split; [apply made_diagonal; discriminate|]. do 5 (split; [vm_compute; reflexivity|]). split; [repeat constructor|]. vm_compute. discriminate.
Qed.

(** Sums and element-wise products of constants; the element-wise product of a diagonal operator by a constant; the
    element-wise product of a constant by an operator, whose output is multiplied. *)
Theorem C21_constants : forall (K : dring) f (k1 k2 : constop K) r out y1 y2 idx0, kmade k1 -> kmade k2 -> constant_rule f k1 k2 = Some r ->
  constant_apply k1 out = Ok y1 -> constant_apply k2 out = Ok y2 -> inside out idx0 ->
  exists k z, r = Ok k /\ constant_apply k out = Ok z /\ combines f y1 y2 z.
Proof.
  intros K f k1 k2 r out y1 y2 idx0 M1%kmade_cwf M2%kmade_cwf R E1 E2 I. destruct (constant_rule_sound f k1 k2 r out y1 y2 idx0 M1 M2 R E1 E2 I) as (k & z & A & _ & B). eauto.
Qed.
Theorem C21_diagonal_constant : forall (K : dring) (op : diag K) k r x y1 y2, made op -> kmade k -> diag_constant_rule op k = Some r ->
  apply op x = Ok y1 -> constant_apply k (ashape x) = Ok y2 -> exists op' z, r = Ok op' /\ made op' /\ apply op' x = Ok z /\ combines rmul y1 y2 z.
Proof. intros K op k r x y1 y2 M1 M2%kmade_cwf. apply diag_constant_sound; auto. Qed.
Theorem C21_constant_operator : forall (K : dring) (k : constop K) y c, kmade k -> constant_apply k (ashape y) = Ok c ->
  exists z, apply (constant_mul_rule k) y = Ok z /\ combines rmul c y z.
Proof. intros K k y c M%kmade_cwf. apply constant_mul_sound; auto. Qed.
Example C21_constants_example : exists k1 k2, constant (vec [2; 3]%Z) Rightward = Ok k1 /\ constant (vec [10; 20]%Z) Rightward = Ok k2 /\
  match constant_rule (K := ZD) Z.add k1 k2 with Some (Ok k) => elements (constant_apply k [2; 2]) | _ => None end = Some ([2; 2], [12; 12; 23; 23]%Z) /\
  match diag_constant_rule (diagonal (vec [5; 7]%Z) Disabled) k1 with Some (Ok k) => elements (apply k (vec [1; 1]%Z)) | _ => None end = Some ([2], [10; 21]%Z) /\
  elements (apply (constant_mul_rule k1) (mat 2 2 [1; 2; 3; 4]%Z)) = Some ([2; 2], [2; 4; 9; 12]%Z).
Proof. eexists. eexists. split; [vm_compute; reflexivity|]. split; [vm_compute; reflexivity|]. vm_compute. auto. Qed.

(** A constant on the right of an operator: the strided array given to it has, at each index, the coefficient facing it, if
    the data are C-contiguous. *)
Theorem C21_as_strided_partial : forall x size b shape idx, st_strides x = c_strides size (st_shape x) -> fits b (st_shape x) shape -> inside shape idx ->
  address (as_strided x size b shape) idx = address x (facing b (st_shape x) idx).
Proof. apply as_strided_ok. Qed.
Example C21_as_strided_example : let x := {| st_base := 1000; st_shape := [2; 1; 3]; st_strides := [24; 24; 8]%Z |} in
  st_strides x = c_strides 8 (st_shape x) /\ address (as_strided x 8 Leftward [4; 2; 5; 3]) [3; 1; 4; 2] = (1000 + 24 + 16)%Z.
Proof. vm_compute. auto. Qed.
(** Finding: the strides of the data are ignored; for every other element of an array, or a transposed array, other elements
    are read. *)
Theorem C21_as_strided_refuted : exists x idx, st_shape x = [2; 2] /\ st_strides x = [8; 16]%Z /\ inside [2; 2] idx /\
  address (as_strided x 8 Disabled [2; 2]) idx <> address x (facing Disabled (st_shape x) idx).
Proof. exists {| st_base := 0; st_shape := [2; 2]; st_strides := [8; 16]%Z |}, [0; 1]. split; [auto|]. split; [auto|]. split; [repeat constructor|]. vm_compute. discriminate. Qed.

Print Assumptions C20_inspect.
Print Assumptions C20_diagonal.
Print Assumptions C20_mask.
Print Assumptions C20_homothety.
Print Assumptions C20_homothety_array.
Print Assumptions C20_constant.
Print Assumptions C20_constant_empty_refuted.
Print Assumptions C20_kind.
Print Assumptions C20_rejects.
Print Assumptions C20_unfit_refuted.
Print Assumptions C20_involutary.
Print Assumptions C20_idempotent.
Print Assumptions C20_inverse.
Print Assumptions C21_compose.
Print Assumptions C21_sum.
Print Assumptions C21_sum_masks_refuted.
Print Assumptions C21_scalar_refuted.
Print Assumptions C21_multiply_partial.
Print Assumptions C21_multiply_refuted.
Print Assumptions C21_constants.
Print Assumptions C21_diagonal_constant.
Print Assumptions C21_constant_operator.
Print Assumptions C21_as_strided_partial.
Print Assumptions C21_as_strided_refuted.
