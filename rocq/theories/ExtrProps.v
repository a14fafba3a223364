(** C63: minima, maxima and products along an axis. *)
From Verif Require Import Base BlockModel BlockSpec DiagModel RedModel RedProofs ExtrModel ExtrSpec ExtrProofs.

Section Extrema.
Context {A : Type} (leb : A -> A -> bool).
Context (TO : total_order leb).

(** MaxOperator(axis, skipna=skipna)(x): each element of the result is the greatest of those along the axis, with the rule for NaN that
    skipna tells; axes may be negative. *)
Theorem C63_max : forall skipna z (x : array (num A)) a, position (Axis z) (length (ashape x)) = Some a -> nth a (ashape x) 0 <> 0 ->
  exists y, max_call leb skipna (Some z) x = Ok y /\ ashape y = remove_at a (ashape x) /\
  forall idx, inside (ashape y) idx -> greatest (fun u v => leb u v = true) skipna (along x a idx) (aval y idx).
Proof. intros skipna z x a. apply (extremum_axis (better := fun b a => leb a b)). exact TO. Qed.
(** MinOperator: the least *)
Theorem C63_min : forall skipna z (x : array (num A)) a, position (Axis z) (length (ashape x)) = Some a -> nth a (ashape x) 0 <> 0 ->
  exists y, min_call leb skipna (Some z) x = Ok y /\ ashape y = remove_at a (ashape x) /\
  forall idx, inside (ashape y) idx -> greatest (fun u v => leb v u = true) skipna (along x a idx) (aval y idx).
Proof. intros skipna z x a. apply (extremum_axis (better := fun b a => leb b a)). exact (flipped TO). Qed.
(** Without axis: over all the elements *)
Theorem C63_max_all : forall skipna (x : array (num A)), ashape x <> [] -> (~ In 0 (ashape x)) ->
  exists y, max_call leb skipna None x = Ok y /\ ashape y = [] /\ greatest (fun u v => leb u v = true) skipna (element x) (aval y []).
Proof. intros skipna x N Z. apply (extremum_all (better := fun b a => leb a b)); [exact TO|exact N|]. now rewrite prod_zero. Qed.
Theorem C63_min_all : forall skipna (x : array (num A)), ashape x <> [] -> (~ In 0 (ashape x)) ->
  exists y, min_call leb skipna None x = Ok y /\ ashape y = [] /\ greatest (fun u v => leb v u = true) skipna (element x) (aval y []).
Proof. intros skipna x N Z. apply (extremum_all (better := fun b a => leb b a)); [exact (flipped TO)|exact N|]. now rewrite prod_zero. Qed.
(** Invalid axes and scalars are rejected; so are arrays without elements along the axis, if the result would have elements. *)
Theorem C63_rejects : forall skipna z (x : array (num A)),
  (position (Axis z) (length (ashape x)) = None -> (exists e, max_call leb skipna (Some z) x = Raise e) /\ exists e, min_call leb skipna (Some z) x = Raise e) /\
  (forall a, position (Axis z) (length (ashape x)) = Some a -> nth a (ashape x) 0 = 0 -> ~ In 0 (remove_at a (ashape x)) ->
     max_call leb skipna (Some z) x = Raise ValueError /\ min_call leb skipna (Some z) x = Raise ValueError) /\
  (In 0 (ashape x) -> max_call leb skipna None x = Raise ValueError /\ min_call leb skipna None x = Raise ValueError) /\
  (ashape x = [] -> max_call leb skipna None x = Raise TypeError /\ min_call leb skipna None x = Raise TypeError).
Proof.
  intros skipna z x. split; [|split; [|split]].
  - intros P. split; now apply call_rejects.
  - intros a P Z N. split; apply (extremum_empty _ _ P Z N).
  - intros Z. split; now apply extremum_empty_all.
  - intros S. unfold max_call, min_call, reduction_call, red_validatein. now rewrite S.
Qed.
(** MinMaxOperator(axis, new_axisout=zo): the minima at the index 0 of the new axis and the maxima at its index 1 *)
Theorem C63_minmax : forall skipna axis zo b (x out mi ma : array (num A)),
  min_call leb skipna axis x = Ok mi -> max_call leb skipna axis x = Ok ma ->
  position (NewAxis zo) (S (length (ashape mi))) = Some b -> ashape out = insert b 2 (ashape mi) ->
  exists r, minmax_direct leb axis skipna zo x out = Ok r /\ ashape r = ashape out /\
  forall idx, inside (ashape mi) idx -> aval r (insert b 0 idx) = aval mi idx /\ aval r (insert b 1 idx) = aval ma idx.
Proof. intros skipna axis zo b x out mi ma Hmi Hma. apply (minmax_column Hmi Hma). exact (same_shapes Hmi Hma). Qed.
End Extrema.
Example C63_max_ex : position (Axis (-2)) 2 = Some 0 /\ shown (max_call Z.leb false (Some (-2)%Z) table) = Some ([3], [Some 4; Some 7; None]%Z) /\
  shown (max_call Z.leb true (Some (-2)%Z) table) = Some ([3], [Some 4; Some 7; Some 3]%Z) /\
  shown (min_call Z.leb true None table) = Some ([], [Some (-2)]%Z) /\ total_order Z.leb.
Proof. repeat (split; [reflexivity|]). exact Zleb_order. Qed.
Example C63_rejects_ex : position (Axis 2) 2 = None /\ max_call Z.leb true (Some 0%Z) (arr [0; 3] []) = Raise ValueError /\
  shown (max_call Z.leb true (Some 0%Z) (arr [0; 0] [])) = Some ([0], []).
Proof. repeat split. Qed.
Example C63_minmax_ex : shown (minmax_direct Z.leb (Some 0%Z) true (-1)%Z table (arr [3; 2] [])) =
  Some ([3; 2], [Some (-2); Some 4; Some 1; Some 7; Some 3; Some 3]%Z).
Proof. reflexivity. Qed.

(** ProductOperator(axis)(x): the products of the elements along the axis, NaN if there is a NaN among them *)
Theorem C63_product : forall (A : Type) (mul : A -> A -> A) one skipna z (x : array (num A)) a, position (Axis z) (length (ashape x)) = Some a ->
  exists y, product_call mul one skipna (Some z) x = Ok y /\ ashape y = remove_at a (ashape x) /\
  forall idx, inside (ashape y) idx ->
    (along x a idx None -> aval y idx = None) /\
    (~ along x a idx None -> aval y idx = Some (product_without_nan mul one (map (fun i => aval x (insert a i idx)) (seq 0 (nth a (ashape x) 0))))).
Proof. intros A mul one skipna z x a. apply reduce_axis. Qed.
Example C63_product_ex : shown (product_call Z.mul 1%Z false (Some 1%Z) (arr [2; 2] [Some 2; Some 3; Some 5; None]%Z)) = Some ([2], [Some 6%Z; None]).
Proof. reflexivity. Qed.
(** SumOperator(axis, skipna=skipna)(x): the sums, in which NaN counts for zero if it is skipped *)
Theorem C63_sum : forall (A : Type) (add : A -> A -> A) zero z (x : array (num A)) a, position (Axis z) (length (ashape x)) = Some a ->
  (exists y, sum_call add zero true (Some z) x = Ok y /\ ashape y = remove_at a (ashape x) /\
   forall idx, inside (ashape y) idx ->
     aval y idx = Some (product_without_nan add zero (map (fun i => aval x (insert a i idx)) (seq 0 (nth a (ashape x) 0))))) /\
  exists y, sum_call add zero false (Some z) x = Ok y /\ ashape y = remove_at a (ashape x) /\
  forall idx, inside (ashape y) idx ->
    (along x a idx None -> aval y idx = None) /\
    (~ along x a idx None -> aval y idx = Some (product_without_nan add zero (map (fun i => aval x (insert a i idx)) (seq 0 (nth a (ashape x) 0))))).
Proof. intros A add zero z x a P. split; [apply (nan_axis _ _ P)|apply (reduce_axis _ _ P)]. Qed.
Example C63_sum_ex : shown (ExtrModel.sum_call Z.add 0%Z true (Some 1%Z) (arr [2; 2] [Some 2; Some 3; Some 5; None]%Z)) = Some ([2], [Some 5; Some 5]%Z).
Proof. reflexivity. Qed.
(** Finding: ProductOperator has the default skipna=True, documented as if NaN elements were not counted; but it passes np.multiply, whose
    reduction does not know skipna with numpy 1: the product of [2, NaN] is NaN, not 2. *)
Theorem C63_product_nan_refuted :
  ~ (forall z (x : array (num Z)) a, position (Axis z) (length (ashape x)) = Some a ->
     exists y, product_call Z.mul 1%Z true (Some z) x = Ok y /\
     forall idx, inside (ashape y) idx ->
       aval y idx = Some (product_without_nan Z.mul 1%Z (map (fun i => aval x (insert a i idx)) (seq 0 (nth a (ashape x) 0))))).
Proof. exact product_nan_counterexample. Qed.
(** Finding: SumOperator is declared linear, but its default skipna=True counts NaN for zero: the sum of x + y is not the sum of x plus the
    sum of y if x contains NaN.  Products that the rules of linear operators rearrange then give other results. *)
Theorem C63_sum_nan_refuted :
  ~ (forall (x y : array (num Z)) a b c, ashape x = [1] -> ashape y = [1] ->
     sum_call Z.add 0%Z true None x = Ok a -> sum_call Z.add 0%Z true None y = Ok b -> sum_call Z.add 0%Z true None (added x y) = Ok c ->
     aval c [] = plus_nan (aval a []) (aval b [])).
Proof. exact sum_nan_counterexample. Qed.

(** A reduction operator is made of a ufunc with two inputs and one output, or of a Python function with an argument axis; nothing else is
    accepted. *)
Theorem C63_functions : forall (A : Type) (g : func (A := A)), is_ok (construct g) = true <->
  match g with Ufunc nin nout _ => nin = 2 /\ nout = 1 | Function has_axis _ => has_axis = true | Other => False end.
Proof. intros A g. apply construct_ok. Qed.
Example C63_functions_ex : construct (Ufunc 1 1 (ufunc_reduce Z.add 0%Z)) = Raise TypeError /\ is_ok (construct (Ufunc 2 1 (ufunc_reduce Z.add 0%Z))) = true.
Proof. split; reflexivity. Qed.

Print Assumptions C63_max.
Print Assumptions C63_min.
Print Assumptions C63_max_all.
Print Assumptions C63_min_all.
Print Assumptions C63_rejects.
Print Assumptions C63_minmax.
Print Assumptions C63_product.
Print Assumptions C63_sum.
Print Assumptions C63_product_nan_refuted.
Print Assumptions C63_sum_nan_refuted.
Print Assumptions C63_functions.
