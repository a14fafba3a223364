(** C55: the functions that compare results accept them exactly when they are equal, within the tolerance asked for. *)
From Coq Require Import QArith Qabs Qminmax String.
From Verif Require Import Base SeqSpec BlockModel BlockSpec DiagModel DiagSpec DenseSpec CmpModel CmpSpec CmpProofs.
Open Scope nat_scope.
Open Scope list_scope.

(** assert_same accepts arrays of the same shape whose elements are equal within rtol eps and atol eps, where eps is the one of
    the least precise floating-point type, and integers are compared exactly; NaN equals NaN and an infinity equals itself.
    Otherwise an AssertionError is raised.  Missing: opposite infinities, which are accepted (C55_opposite_infinities_refuted). *)
Theorem C55_same_partial x y u atol rtol : numeric x -> numeric y -> well_typed x -> well_typed y -> unit_of x y u ->
  ((0 < rtol)%Q -> forall idx, inside (ashape (n_arr x)) idx -> inside (ashape (n_arr y)) idx -> ~ opposite (aval (n_arr x) idx) (aval (n_arr y) idx)) ->
  (assert_same x y atol rtol false = Ok tt <-> pairwise (near (u * rtol) (u * atol)) (n_arr x) (n_arr y)) /\
  (assert_same x y atol rtol false = Ok tt \/ assert_same x y atol rtol false = Raise AssertionError).
Proof. exact (assert_same_ok x y u atol rtol). Qed.

(** Two arrays that differ by rounding, an infinity and a NaN; the first one is in single precision. *)
Definition vec (d : dtype) (l : list fnum) : narray := NA d (Arr [List.length l] (fun idx => nth (hd 0 idx) l NaN)).
Definition vx := vec (Float Single) [Fin 1; Inf true; NaN; Fin (1 # 3)].
Definition vy := vec (Float Double) [Fin (1 + (1 # 2 ^ 22)); Inf true; NaN; Fin (1 # 3)].
Example C55_same_example : numeric vx /\ numeric vy /\ well_typed vx /\ well_typed vy /\ unit_of vx vy (1 # 2 ^ 23) /\
  (forall idx, inside [4] idx -> ~ opposite (aval (n_arr vx) idx) (aval (n_arr vy) idx)) /\
  assert_same vx vy 0 5 false = Ok tt /\ assert_same vx vy 0 1 false = Raise AssertionError.
Proof.
  split; [discriminate|]. split; [discriminate|]. split; [discriminate|]. split; [discriminate|]. split; [reflexivity|]. split; [|split; reflexivity].
  intros idx H. inversion H as [|? i ? l Hi Hl]; subst. do 4 (destruct i as [|i]; [cbn; auto|]). lia.
Qed.

(** The same when the arrays are broadcast. *)
Theorem C55_same_broadcast_partial x y u atol rtol : numeric x -> numeric y -> well_typed x -> well_typed y -> unit_of x y u ->
  ((0 < rtol)%Q -> forall i j, inside (ashape (n_arr x)) i -> inside (ashape (n_arr y)) j -> ~ opposite (aval (n_arr x) i) (aval (n_arr y) j)) ->
  (assert_same x y atol rtol true = Ok tt <-> stretched_pairwise (near (u * rtol) (u * atol)) (n_arr x) (n_arr y)).
Proof. exact (assert_same_broadcast x y u atol rtol). Qed.

Definition one := NA (Float Double) (Arr [2; 1] (fun idx => Fin (inject_Z (Z.of_nat (hd 0 idx))))).
Example C55_same_broadcast_example :
  assert_same one (NA Integer (Arr [3] (fun _ => Fin 0))) 0 5 true = Raise AssertionError /\
  assert_same one (NA Integer (Arr [2; 3] (fun idx => Fin (inject_Z (Z.of_nat (hd 0 idx)))))) 0 5 true = Ok tt /\
  assert_same one (NA Integer (Arr [3; 3] (fun idx => Fin 0))) 0 5 true = Raise ValueError /\
  assert_same one (NA Integer (Arr [2; 3] (fun idx => Fin (inject_Z (Z.of_nat (hd 0 idx)))))) 0 5 false = Raise AssertionError.
Proof. repeat split. Qed.

(** The exceptions: TypeError for arrays that are not numbers, ValueError for shapes that cannot be broadcast when broadcasting is
    asked for, and AssertionError. *)
Theorem C55_same_errors x y atol rtol b e : assert_same x y atol rtol b = Raise e ->
  (e = TypeError /\ (n_dtype x = NotNumeric \/ n_dtype y = NotNumeric)) \/ e = AssertionError \/
  (e = ValueError /\ b = true /\ ~ compatible [ashape (n_arr x); ashape (n_arr y)]).
Proof. exact (assert_same_errors x y atol rtol b e). Qed.
Example C55_same_errors_example : assert_same (NA NotNumeric (scalar NaN)) vx 0 5 true = Raise TypeError.
Proof. reflexivity. Qed.

(** The two arguments play the same part. *)
Theorem C55_same_symmetric x y atol rtol b : assert_same x y atol rtol b = assert_same y x atol rtol b.
Proof. exact (assert_same_sym x y atol rtol b). Qed.
Example C55_same_symmetric_example : assert_same vy vx 0 5 false = Ok tt.
Proof. reflexivity. Qed.

(** What is accepted is still accepted with larger tolerances. *)
Theorem C55_same_tolerance x y atol rtol atol' rtol' b : (atol <= atol')%Q -> (rtol <= rtol')%Q ->
  assert_same x y atol rtol b = Ok tt -> assert_same x y atol' rtol' b = Ok tt.
Proof. exact (assert_same_mono x y atol rtol atol' rtol' b). Qed.
Example C55_same_tolerance_example : assert_same vx vy 2 0 false = Ok tt /\ assert_same vx vy 1 0 false = Raise AssertionError /\ assert_same vx vy 3 7 false = Ok tt.
Proof. repeat split. Qed.

(** Opposite infinities are accepted: the difference is infinite, and so is the tolerance. *)
Theorem C55_opposite_infinities_refuted : ~ (forall x y u atol rtol, numeric x -> numeric y -> well_typed x -> well_typed y -> unit_of x y u ->
  assert_same x y atol rtol false = Ok tt -> pairwise (near (u * rtol) (u * atol)) (n_arr x) (n_arr y)).
Proof.
  intros H. specialize (H (vec (Float Double) [Inf true]) (vec (Float Double) [Inf false]) (eps Double) 0%Q 5%Q).
  destruct H as [_ H]; [discriminate|discriminate|discriminate|discriminate|reflexivity|reflexivity|].
  specialize (H [0]). discriminate H. repeat constructor.
Qed.

(** assert_eq accepts equal values: the same texts, numbers that agree within one part in ten millions, sets that have the same elements,
    sequences of equal elements, dictionaries that have the same keys and equal values.  Missing: a dictionary that faces a list or
    a tuple (C55_dictionary_refuted) and frozensets (C55_frozenset_refuted). *)
Theorem C55_equal_partial a b : wf a -> wf b -> regular a b -> (assert_eq a b = true <-> same_value a b).
Proof. exact (assert_eq_ok a b). Qed.

Definition va := VDict [("x", VList [VNum (Fin 1); VTuple [VStr "s"; VNone]]); ("y", VArr (Arr [2] (fun idx => Fin (inject_Z (Z.of_nat (hd 0 idx))))))]%string.
Definition vb := VDict [("y", VTuple [VNum (Fin 0); VNum (Fin 1)]); ("x", VTuple [VNum (Fin (1 + (1 # 10 ^ 8))); VList [VStr "s"; VNone]])]%string.
Example C55_equal_example : wf va /\ wf vb /\ regular va vb /\ assert_eq va vb = true /\
  assert_eq va (VDict [("x", VNone); ("y", VNone)])%string = false /\ assert_eq (VTuple [VNone]) (VTuple [VNone; VNone]) = false.
Proof.
  split; [|split; [|split; [|repeat split]]].
  - apply wf_dict; [repeat constructor; cbn; intuition discriminate|]. repeat first [apply wf_list|apply wf_tuple|apply wf_leaf; exact I|constructor].
  - apply wf_dict; [repeat constructor; cbn; intuition discriminate|]. repeat first [apply wf_list|apply wf_tuple|apply wf_leaf; exact I|constructor].
  - apply regular_dict. intros k v w Hv Hw. cbn in Hv, Hw.
    destruct Hv as [Hv|[Hv|[]]], Hw as [Hw|[Hw|[]]]; inversion Hv; subst; inversion Hw; subst.
    + eapply regular_seq; [left; reflexivity|right; reflexivity|]. constructor; [apply regular_leaf; left; reflexivity|]. constructor; [|constructor].
      eapply regular_seq; [right; reflexivity|left; reflexivity|]. repeat constructor.
    + apply regular_leaf. left. reflexivity.
Qed.

(** Any value is accepted against itself. *)
Theorem C55_reflexive a : wf a -> assert_eq a a = true.
Proof. exact (assert_eq_refl a). Qed.
Example C55_reflexive_example : assert_eq va va = true /\ assert_eq (VFrozen ["a"; "b"])%string (VFrozen ["a"; "b"])%string = true /\ assert_eq (VNum NaN) (VNum NaN) = true.
Proof. repeat split. Qed.

(** A dictionary equals the list of its keys, whatever its values. *)
Theorem C55_dictionary_refuted : ~ (forall a b, wf a -> wf b -> assert_eq a b = true -> same_value a b).
Proof.
  intros H. specialize (H (VDict [("x", VNone)])%string (VList [VStr "x"])).
  assert (same_value (VDict [("x", VNone)])%string (VList [VStr "x"])) as S.
  { apply H; [apply wf_dict; repeat first [apply wf_leaf; exact I|constructor]; cbn; tauto|apply wf_list; repeat first [apply wf_leaf; exact I|constructor]|reflexivity]. }
  inversion S; subst; repeat match goal with G : _ \/ _ |- _ => destruct G as [G|G] | G : sequence _ _ |- _ => destruct G as [G|G] | G : number_like _ |- _ => destruct G as [[? G]|[? G]] end; discriminate.
Qed.

(** Equal frozensets are rejected when they are iterated over in different orders. *)
Theorem C55_frozenset_refuted : ~ (forall a b, wf a -> wf b -> same_value a b -> assert_eq a b = true).
Proof.
  intros H. specialize (H (VFrozen ["a"; "b"])%string (VFrozen ["b"; "a"])%string). discriminate H; [constructor; exact I|constructor; exact I|].
  eapply same_sets; [right; reflexivity|right; reflexivity|]. intros s. cbn. tauto.
Qed.

(** The order of the arguments of assert_eq matters: the tolerance is relative to the second one. *)
Theorem C55_equal_symmetric_refuted : ~ (forall a b, assert_eq a b = assert_eq b a).
Proof. intros H. specialize (H (VNum (Fin 1)) (VNum (Fin (1 + (100000005 # 10 ^ 15))))). vm_compute in H. discriminate H. Qed.

Print Assumptions C55_same_partial.
Print Assumptions C55_same_broadcast_partial.
Print Assumptions C55_same_errors.
Print Assumptions C55_same_symmetric.
Print Assumptions C55_same_tolerance.
Print Assumptions C55_opposite_infinities_refuted.
Print Assumptions C55_equal_partial.
Print Assumptions C55_reflexive.
Print Assumptions C55_dictionary_refuted.
Print Assumptions C55_frozenset_refuted.
Print Assumptions C55_equal_symmetric_refuted.
