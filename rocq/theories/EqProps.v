(** C51: comparison of values and operators *)
From Coq Require Import String QArith Qabs Lia.
From Verif Require Import Base EqModel EqSpec EqProofs.
Local Open Scope nat_scope.
Local Open Scope list_scope.
Local Open Scope string_scope.

(** A value is equal to itself, even if it contains NaN *)
Theorem C51_reflexive (a : value) : all_eq a a = Ok true.
Proof. destruct a as [i c]. apply all_eq_same. Qed.
Example C51_reflexive_ex : all_eq (V 1 (CFloat NaN)) (V 1 (CFloat NaN)) = Ok true.
Proof. reflexivity. Qed.

(** Two values are found equal exactly if they are the same object or have the same structure with close numbers: the same types, the same keys, in any order, and equal values for them *)
Theorem C51_similar (a b : value) (W : wf a) : all_eq a b = Ok true <-> similar a b.
Proof. exact (all_eq_similar a b W). Qed.
(** {'n': 1, 's': (1.0, 'x')} and {'s': (1.0 + 1e-6, 'x'), 'n': 1} *)
Definition left_ := V 1 (CMap 0 [("n", V 2 (CInt 1)); ("s", V 3 (CSeq 1 [V 4 (CFloat (Fin 1)); V 5 (CStr "x")]))]).
Definition right_ := V 11 (CMap 0 [("s", V 13 (CSeq 1 [V 14 (CFloat (Fin (1000001 # 1000000))); V 15 (CStr "x")])); ("n", V 12 (CInt 1))]).
Example C51_similar_ex : wf left_ /\ all_eq left_ right_ = Ok true /\ all_eq left_ (V 20 (CMap 0 [("n", V 2 (CInt 1))])) = Ok false.
Proof.
  split; [|split; reflexivity]. apply wf_map.
  - unfold distinct. cbn. constructor; [intros [E|[]]; discriminate|]. constructor; [intros []|constructor].
  - repeat constructor.
Qed.

Definition data2 (x y : num) := Array [2] (fun i => match i with [0] => x | _ => y end).
(** Two arrays are equal exactly if their shapes are compatible and their elements close, the dimensions of size one being repeated; they are refused if their shapes are not compatible *)
Theorem C51_arrays (i j : nat) (A B : array) (N : i <> j) :
  (all_eq (V i (CArray A)) (V j (CArray B)) = Ok true <-> compatible (a_shape A) (a_shape B) /\ forall f, (forall k, (f k < common (a_shape A) (a_shape B) k)%nat) -> close (element A f) (element B f))
  /\ (all_eq (V i (CArray A)) (V j (CArray B)) = Raise ValueError <-> ~ compatible (a_shape A) (a_shape B)).
Proof. rewrite (arrays_eq i j A B N). apply allclose_arrays; reflexivity. Qed.
(** A 2x1 column, a row of two numbers and the same one with another number *)
Example C51_arrays_ex : let col := Array [2; 1] (fun _ => Fin 1) in let row x := data2 (Fin 1) x in
  all_eq (V 1 (CArray col)) (V 2 (CArray (row (Fin 1)))) = Ok true /\ all_eq (V 1 (CArray (row (Fin 1)))) (V 2 (CArray col)) = Ok true /\ all_eq (V 1 (CArray col)) (V 2 (CArray (row (Fin 2)))) = Ok false.
Proof. repeat split; reflexivity. Qed.
(** A one-dimensional array is equal to a sequence of as many numbers exactly if its elements are close to them, and the sequence to the array *)
Theorem C51_sequences (i j ty n : nat) (A : array) (l : list value) (r : list num) (N : i <> j) (S : a_shape A = [n]) (L : length r = n) (R : Forall2 (fun v x => number v = Some x) l r) :
  (all_eq (V i (CArray A)) (V j (CSeq ty l)) = Ok true <-> forall k, (k < n)%nat -> close (a_get A [k]) (nth k r NaN))
  /\ (all_eq (V i (CSeq ty l)) (V j (CArray A)) = Ok true <-> forall k, (k < n)%nat -> close (nth k r NaN) (a_get A [k])).
Proof.
  assert (E : [length r] = [n]) by (f_equal; exact L). pose proof (as_array_seq ty l r R) as EL. split; rewrite floats by (auto; exact I).
  - exact (allclose_vectors (CArray A) (CSeq ty l) A _ n eq_refl EL S E).
  - exact (allclose_vectors (CSeq ty l) (CArray A) _ A n EL eq_refl E S).
Qed.
Example C51_sequences_ex : Forall2 (fun v x => number v = Some x) [V 3 (CInt 1); V 4 (CFloat PInf)] [Fin 1; PInf] /\ all_eq (V 1 (CArray (data2 (Fin 1) PInf))) (V 2 (CSeq 1 [V 3 (CInt 1); V 4 (CFloat PInf)])) = Ok true.
Proof. split; [repeat constructor|reflexivity]. Qed.
(** Two numbers, one of which is a float, are equal exactly if they are close *)
Theorem C51_numbers (i j : nat) (a b : content) (x y : num) (N : i <> j) (EA : number (V i a) = Some x) (EB : number (V j b) = Some y) (F : floating a = true \/ floating b = true) :
  all_eq (V i a) (V j b) = Ok true <-> close x y.
Proof.
  rewrite floats; [exact (allclose_numbers i j a b x y EA EB)|exact N| |apply Bool.orb_true_iff; exact F].
  destruct a; try exact I; discriminate.
Qed.
Example C51_numbers_ex : all_eq (V 1 (CInt 1)) (V 2 (CFloat (Fin (1000001 # 1000000)))) = Ok true.
Proof. reflexivity. Qed.

(** A copy of a value without NaN is equal to it *)
Theorem C51_copy (a b : value) (W : wf a) (R : regular a) (C : copy a b) : all_eq a b = Ok true.
Proof. apply (all_eq_similar a b W). exact (copy_similar a b R C). Qed.
Example C51_copy_ex :
  let a := V 1 (COp 0 [("data", V 2 (CArray (data2 (Fin 3) PInf))); ("_T", V 3 (CObj 0))]) in
  let b := V 11 (COp 0 [("data", V 12 (CArray (data2 (Fin 3) PInf))); ("_T", V 3 (CObj 0))]) in
  wf a /\ regular a /\ copy a b /\ all_eq a b = Ok true.
Proof.
  cbn zeta. split; [|split; [|split; [|reflexivity]]].
  - apply wf_op; [|repeat constructor]. unfold distinct. cbn. constructor; [intros [E|[]]; discriminate|]. constructor; [intros []|constructor].
  - apply re_op. constructor; [|constructor; [|constructor]]; apply re_other; cbn; auto.
    intros i H. destruct i as [|[|n] [|]]; discriminate.
  - apply copy_op. constructor; [|constructor; [|constructor]]; (split; [reflexivity|apply copy_other; exact I]).
Qed.

(** The comparison of values without floating point number raises no exception, ... *)
Theorem C51_exact (a b : value) (XA : exact a) (XB : exact b) : exists r, all_eq a b = Ok r.
Proof. exact (exact_ok a b XA XB). Qed.
(** ... is symmetric ... *)
Theorem C51_symmetric (a b : value) (XA : exact a) (XB : exact b) (WA : wf a) (WB : wf b) : all_eq a b = all_eq b a.
Proof.
  destruct (exact_ok a b XA XB) as [r E]. destruct (exact_ok b a XB XA) as [r' E']. rewrite E, E'. f_equal.
  destruct r, r'; try reflexivity; exfalso.
  - apply (all_eq_similar a b WA) in E. apply (similar_sym a b) in E; [|exact XA|exact XB]. apply (all_eq_similar b a WB) in E. congruence.
  - apply (all_eq_similar b a WB) in E'. apply (similar_sym b a) in E'; [|exact XB|exact XA]. apply (all_eq_similar a b WA) in E'. congruence.
Qed.
(** ... and transitive *)
Theorem C51_transitive (heap : nat -> content) (a b c : value) (LA : living heap a) (LB : living heap b) (LC : living heap c) (XA : exact a) (XB : exact b) (XC : exact c) (WA : wf a) (WB : wf b) :
  all_eq a b = Ok true -> all_eq b c = Ok true -> all_eq a c = Ok true.
Proof.
  intros E E'. apply (all_eq_similar a b WA) in E. apply (all_eq_similar b c WB) in E'. apply (all_eq_similar a c WA).
  exact (similar_trans heap a b c LA LB LC XA XB XC E E').
Qed.
Definition tuple_ (i : nat) := V i (CSeq 1 [V 2 (CInt 1); V (S i) (CStr "x")]).
Definition heap_ (i : nat) : content := match i with 2 => CInt 1 | 10 | 20 | 30 => CSeq 1 [V 2 (CInt 1); V (S i) (CStr "x")] | _ => CStr "x" end.
Example C51_exact_ex : exact (tuple_ 10) /\ wf (tuple_ 10) /\ living heap_ (tuple_ 10) /\ living heap_ (tuple_ 20) /\ living heap_ (tuple_ 30) /\ all_eq (tuple_ 10) (tuple_ 20) = Ok true /\ all_eq (tuple_ 20) (tuple_ 30) = Ok true.
Proof. split; [repeat constructor|]. split; [repeat constructor|]. split; [repeat constructor|]. split; [repeat constructor|]. split; [repeat constructor|]. split; reflexivity. Qed.

(** The comparison of operators does not depend on their rules and on their cached associated operators *)
Theorem C51_cached (i j ty ty' : nat) (l l' m m' : list (string * value)) (E : attributes l = attributes m) (E' : attributes l' = attributes m') :
  all_eq (V i (COp ty l)) (V j (COp ty' l')) = all_eq (V i (COp ty m)) (V j (COp ty' m')).
Proof. exact (all_eq_cached i j ty ty' l l' m m' E E'). Qed.
Example C51_cached_ex : let t := V 9 (COp 1 []) in
  attributes [("_T", t); ("n", V 2 (CInt 1)); ("rules", V 3 (CObj 4))] = attributes [("n", V 2 (CInt 1))]
  /\ all_eq (V 1 (COp 0 [("_T", t); ("n", V 2 (CInt 1)); ("rules", V 3 (CObj 4))])) (V 11 (COp 0 [("n", V 12 (CInt 1))])) = Ok true.
Proof. split; reflexivity. Qed.

(** The comparison is not symmetric: PowerOperator(n) compared with a value that is not a number raises TypeError if the number is on the left and is False if it is on the right, and the tolerance is relative to the number on the right (utils/misc.py, 157-163) *)
Theorem C51_symmetric_refuted :
  (exists a b, wf a /\ wf b /\ all_eq a b = Raise TypeError /\ all_eq b a = Ok false) /\ (exists a b, wf a /\ wf b /\ all_eq a b = Ok true /\ all_eq b a = Ok false).
Proof.
  split.
  - exists (V 1 (CFloat (Fin 1))), (V 2 (CStr "x")). split; [constructor; exact I|]. split; [constructor; exact I|]. split; reflexivity.
  - exists (V 1 (CFloat (Fin 100000))), (V 2 (CFloat (Fin (100001000005 # 1000000)))). split; [constructor; exact I|]. split; [constructor; exact I|]. split; reflexivity.
Qed.
(** The comparison is not transitive: 0, 1e-8 and 2e-8 *)
Theorem C51_transitive_refuted : exists a b c, wf a /\ wf b /\ wf c /\ all_eq a b = Ok true /\ all_eq b c = Ok true /\ all_eq a c = Ok false.
Proof.
  exists (V 1 (CFloat (Fin 0))), (V 2 (CFloat (Fin (1 # 100000000)))), (V 3 (CFloat (Fin (2 # 100000000)))). split; [constructor; exact I|]. split; [constructor; exact I|]. split; [constructor; exact I|]. split; [|split]; reflexivity.
Qed.
(** Operators with small coefficients are found equal when they are not: the diagonals (1e-9, 1e-9) and (-2e-9, 0), since the absolute tolerance is 1e-8 whatever the scale *)
Theorem C51_small_refuted : exists (a b : value) (x y : Q), ~ x == y /\ all_eq a b = Ok true /\
  a = V 1 (COp 0 [("data", V 2 (CArray (data2 (Fin x) (Fin x))))]) /\ b = V 11 (COp 0 [("data", V 12 (CArray (data2 (Fin y) (Fin 0))))]).
Proof.
  exists (V 1 (COp 0 [("data", V 2 (CArray (data2 (Fin (1 # 1000000000)) (Fin (1 # 1000000000)))))])), (V 11 (COp 0 [("data", V 12 (CArray (data2 (Fin (- 2 # 1000000000)) (Fin 0))))])), (1 # 1000000000), (- 2 # 1000000000).
  split; [discriminate|]. split; [reflexivity|]. split; reflexivity.
Qed.
(** Arrays of different shapes are found equal if they are so after broadcasting, for instance [1] and [1, 1], and an array with no element is equal to any number *)
Theorem C51_shape_refuted : exists (a b c : array), a_shape a <> a_shape b /\ a_shape a <> a_shape c /\
  all_eq (V 1 (CArray a)) (V 2 (CArray b)) = Ok true /\ all_eq (V 1 (CArray a)) (V 3 (CArray c)) = Ok true.
Proof.
  exists (Array [1] (fun _ => Fin 1)), (data2 (Fin 1) (Fin 1)), (Array [0] (fun _ => NaN)). split; [discriminate|]. split; [discriminate|]. split; reflexivity.
Qed.
(** The comparison of two operators may raise an exception instead of being False: ValueError for diagonals of different sizes, since the arrays are compared before the shapes of the operators, and TypeError for a number and None *)
Theorem C51_operator_refuted : 
  (exists a b, wf a /\ wf b /\ regular a /\ regular b /\ all_eq a b = Raise ValueError) /\ (exists a b, wf a /\ wf b /\ regular a /\ regular b /\ all_eq a b = Raise TypeError).
Proof.
  assert (W : forall i j k c, match c with CMap _ _ | COp _ _ | CSeq _ _ => False | _ => True end -> wf (V i (COp 0 [("data", V j c); ("shape", V k (CObj k))]))).
  { intros i j k c L. apply wf_op; [unfold distinct; cbn; constructor; [intros [E|[]]; discriminate|]; constructor; [intros []|constructor]|].
    constructor; [constructor; exact L|constructor; [constructor; exact I|constructor]]. }
  assert (R : forall i j k c, match c with CMap _ _ | COp _ _ | CSeq _ _ => False | _ => True end -> no_nan c -> regular (V i (COp 0 [("data", V j c); ("shape", V k (CObj k))]))).
  { intros i j k c L N. apply re_op. constructor; [apply re_other; assumption|constructor; [apply re_other; exact I|constructor]]. }
  split.
  - exists (V 1 (COp 0 [("data", V 2 (CArray (Array [2] (fun _ => Fin 1)))); ("shape", V 3 (CObj 3))])), (V 11 (COp 0 [("data", V 12 (CArray (Array [3] (fun _ => Fin 1)))); ("shape", V 13 (CObj 13))])).
    split; [apply W; exact I|]. split; [apply W; exact I|]. split; [apply R; [exact I|discriminate]|]. split; [apply R; [exact I|discriminate]|]. reflexivity.
  - exists (V 1 (COp 0 [("data", V 2 (CFloat (Fin 1))); ("shape", V 3 (CObj 3))])), (V 11 (COp 0 [("data", V 12 (CObj 0)); ("shape", V 3 (CObj 3))])).
    split; [apply W; exact I|]. split; [apply W; exact I|]. split; [apply R; [exact I|discriminate]|]. split; [apply R; exact I|]. reflexivity.
Qed.
(** A copy of an operator with a NaN is not equal to it, although the operator is equal to itself *)
Theorem C51_nan_refuted : exists a b, wf a /\ copy a b /\ all_eq a a = Ok true /\ all_eq a b = Ok false.
Proof.
  exists (V 1 (CArray (data2 (Fin 1) NaN))), (V 2 (CArray (data2 (Fin 1) NaN))). split; [constructor; exact I|]. split; [constructor; exact I|]. split; reflexivity.
Qed.
(** Operators with functions that differ are found equal: a bound method is compared without its object, and a function without the values of its free variables, so Operator(lambda x, out: ... n ...) for two values of n are equal *)
Theorem C51_function_refuted (cls func code i j : nat) :
  all_eq (V i (COp 0 [("direct", V 1 (CMethod cls func))])) (V j (COp 0 [("direct", V 2 (CMethod cls func))])) = Ok true
  /\ all_eq (V i (COp 0 [("direct", V 1 (CLambda code))])) (V j (COp 0 [("direct", V 2 (CLambda code))])) = Ok true.
Proof. split; cbn; destruct (Nat.eqb i j); rewrite ?Nat.eqb_refl; reflexivity. Qed.

Print Assumptions C51_reflexive.
Print Assumptions C51_similar.
Print Assumptions C51_arrays.
Print Assumptions C51_sequences.
Print Assumptions C51_numbers.
Print Assumptions C51_copy.
Print Assumptions C51_exact.
Print Assumptions C51_symmetric.
Print Assumptions C51_transitive.
Print Assumptions C51_cached.
Print Assumptions C51_symmetric_refuted.
Print Assumptions C51_transitive_refuted.
Print Assumptions C51_small_refuted.
Print Assumptions C51_shape_refuted.
Print Assumptions C51_operator_refuted.
Print Assumptions C51_nan_refuted.
Print Assumptions C51_function_refuted.
