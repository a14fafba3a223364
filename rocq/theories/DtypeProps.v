(** C46: data types of the results. *)
From Coq Require Import QArith Qpower Permutation.
From Verif Require Import Base DtypeModel DtypeSpec DtypeProofs.
Close Scope Q_scope. Local Open Scope nat_scope.

(** The common type: all types can be converted to it, and to no smaller type; the order does not matter. *)
Theorem C46_common : forall l, l <> [] -> Forall numeric l -> exists t, common_type (map Some l) = Some t /\ numeric t /\ (forall s, In s l -> can_cast s t = true) /\
  (forall u, numeric u -> (forall s, In s l -> can_cast s u = true) -> can_cast u t = true -> same_type u t) /\ forall l', Permutation l l' -> common_type (map Some l') = Some t.
Proof.
  intros l N F. destruct (common_some (map Some l)) as (t & E & Nt & Ub & Mi); [rewrite somes_map; exact F|rewrite somes_map; exact N|]. rewrite somes_map in Ub, Mi. exists t. split; [exact E|]. split; [exact Nt|]. split; [exact Ub|]. split.
  - intros u Nu Hu Hc. specialize (Mi u Nu Hu Hc). unfold norm in Mi. injection Mi as H1 H2. split; assumption.
  - intros l' P. rewrite <- E. symmetry. apply common_perm. apply Permutation_map. exact P.
Qed.
(** If signed and unsigned integers are not mixed, it is the smallest of the types to which all can be converted, and types can be combined step by step. *)
Theorem C46_least : forall l, l <> [] -> Forall numeric l -> unmixed l -> exists t, common_type (map Some l) = Some t /\ forall u, numeric u -> (forall s, In s l -> can_cast s u = true) -> can_cast t u = true.
Proof. intros l N F U. destruct (common_least (map Some l)) as (t & E & _ & L & _); [rewrite somes_map; exact F|rewrite somes_map; exact N|rewrite somes_map; exact U|]. rewrite somes_map in L. exists t. split; [exact E|exact L]. Qed.
Theorem C46_stepwise : forall l1 l2, Forall numeric (somes (l1 ++ l2)) -> unmixed (somes (l1 ++ l2)) -> common_type (common_type l1 :: l2) = common_type (l1 ++ l2).
Proof. exact common_assoc. Qed.
(** Conversions to a common type do not change the numbers, but for integers of 64 bits converted to floating-point numbers of 64 bits. *)
Theorem C46_exact : forall s t z, numeric s -> numeric t -> can_cast s t = true -> ~ inexact s t -> represents s z -> represents t z.
Proof. exact exact_ok. Qed.

Section Calls.
Context {V : Type} (astype : dtype -> V -> V) (add : dtype -> V -> V -> V).
(** The type of the result is the common type of the input and of the operator, or that of the input; an argument out must have this type. *)
Theorem C46_call : forall (o : oper V) x, numeric (a_dtype x) -> (forall d, o_dtype o = Some d -> numeric d) ->
  exists t v, call astype o x None = Ok (Array t v) /\ common_type [Some (a_dtype x); o_dtype o] = Some t /\ can_cast (a_dtype x) t = true /\ (forall d, o_dtype o = Some d -> can_cast d t = true) /\ (o_dtype o = None -> t = a_dtype x) /\
    forall t', call astype o x (Some t') = if dtype_eqb t' t then Ok (Array t v) else Raise ValueError.
Proof.
  intros o x Nx No. destruct (call_type (a_dtype x) [o_dtype o] Nx) as (t & Et & Nt & Cx & Co & _).
  { destruct (o_dtype o) as [d|]; [constructor; [apply No; reflexivity|constructor]|constructor]. }
  assert (Ec : common_type [o_dtype o] = o_dtype o) by (destruct (o_dtype o); reflexivity). rewrite Ec in Et. exists t, (o_direct o t t (convert astype (a_dtype x) t (a_data x))). split; [apply call_unfold, Et|]. split; [exact Et|]. split; [exact Cx|]. split; [|split].
  - intros d Ed. apply Co. rewrite Ed. left. reflexivity.
  - intros En. rewrite En in Et. injection Et as <-. reflexivity.
  - intros t'. unfold call. rewrite Et. reflexivity.
Qed.
(** The operands of a product get and return arrays of the type of the result. *)
Theorem C46_product : forall ops x, numeric (a_dtype x) -> Forall numeric (somes (map o_dtype ops)) -> exists t, common_type [Some (a_dtype x); common_type (map o_dtype ops)] = Some t /\
  call astype (composition ops) x None = Ok (Array t (fold_right (fun o v => o_direct o t t v) (convert astype (a_dtype x) t (a_data x)) ops)).
Proof. intros ops x Nx F. destruct (composition_call astype ops x Nx F) as (t & E & _ & C). exists t. split; [exact E|exact C]. Qed.
(** If signed and unsigned integers are not mixed and the operators compute the same with larger types, a product gives the same result, with the same type, as its operands called one by one, and a sum
    that of the sum of the results of its operands. *)
Theorem C46_one_by_one : forall ops x, faithful astype -> numeric (a_dtype x) -> Forall numeric (somes (map o_dtype ops)) -> unmixed (a_dtype x :: somes (map o_dtype ops)) -> Forall (compatible astype) ops ->
  call astype (composition ops) x None = one_by_one astype ops x.
Proof. intros ops x Hf. apply composition_one_by_one, Hf. Qed.
Theorem C46_sum : forall (o : oper V) ops x, faithful astype -> numeric (a_dtype x) -> d_native (a_dtype x) = true -> Forall numeric (somes (map o_dtype (o :: ops))) -> unmixed (a_dtype x :: somes (map o_dtype (o :: ops))) -> Forall (compatible astype) (o :: ops) ->
  exists y ys t, call astype o x None = Ok y /\ Forall2 (fun o y => call astype o x None = Ok y) ops ys /\ common_type (map (fun y => Some (a_dtype y)) (y :: ys)) = Some t /\
    call astype (addition add o ops) x None = Ok (Array t (fold_left (add t) (map (fun y => convert astype (a_dtype y) t (a_data y)) ys) (convert astype (a_dtype y) t (a_data y)))).
Proof. intros o ops x Hf. apply addition_one_by_one, Hf. Qed.
End Calls.

(** complex_dtype, float_dtype, float_or_complex_dtype and float_intrinsic_dtype *)
Theorem C46_functions : forall t, numeric t -> exists c f g h, complex_dtype t = Ok c /\ float_dtype t = Ok f /\ float_or_complex_dtype t = Ok g /\ float_intrinsic_dtype t = Ok h /\
  (numeric c /\ d_kind c = Complex_ /\ can_cast t c = true) /\ (numeric f /\ d_kind f = Float_ /\ (d_kind t <> Complex_ -> can_cast t f = true)) /\
  (numeric g /\ (d_kind g = Float_ \/ d_kind g = Complex_) /\ can_cast t g = true /\ (d_kind t = Float_ \/ d_kind t = Complex_ -> g = t)) /\ ((h = Dt Float_ 4 true /\ (d_kind t = Float_ /\ d_size t <= 4 \/ d_kind t = Complex_ /\ d_size t <= 8)) \/ (h = Dt Float_ 8 true /\ ~ (d_kind t = Float_ /\ d_size t <= 4 \/ d_kind t = Complex_ /\ d_size t <= 8))) /\
  (same_type t (Dt Float_ 2 true) \/ float_dtype c = Ok f) /\ (d_kind t = Complex_ -> c = t /\ complex_dtype f = Ok t).
Proof.
  intros [k n b] H. unfold numeric in H. cbn in H.
  repeat (destruct H as [H|H]; [injection H as <- <-; do 4 eexists; (split; [reflexivity|]); (split; [reflexivity|]); (split; [reflexivity|]); (split; [reflexivity|]);
    (split; [split; [cbn; tauto|split; reflexivity]|]); (split; [split; [cbn; tauto|split; [reflexivity|first [reflexivity|intros N; exfalso; apply N; reflexivity]]]|]);
    (split; [split; [cbn; tauto|split; [first [left; reflexivity|right; reflexivity]|split; [reflexivity|first [reflexivity|intros [N|N]; discriminate N]]]]|]);
    (split; [first [left; split; [reflexivity|cbn; first [left; split; [reflexivity|lia]|right; split; [reflexivity|lia]]]|right; split; [reflexivity|cbn; intros [[N ?]|[N ?]]; first [discriminate N|lia]]]|]); (split; [first [right; reflexivity|left; split; reflexivity]|]); first [intros N; discriminate N|intros _; split; reflexivity]|]); destruct H.
Qed.
Theorem C46_functions_error : forall t, d_kind t = Object_ \/ d_kind t = Other_ -> complex_dtype t = Raise TypeError /\ float_dtype t = Raise TypeError /\ float_or_complex_dtype t = Raise TypeError /\ float_intrinsic_dtype t = Raise TypeError.
Proof. intros t [K|K]; unfold complex_dtype, float_dtype, float_or_complex_dtype, float_intrinsic_dtype; rewrite K; auto. Qed.

(** An operator made of a ufunc has no type if a loop of the ufunc gives integers or booleans, has complex values if none of its loops gives real ones, and else has values in double precision. *)
Theorem C46_ufunc : forall outs,
  ((exists t, In t outs /\ (d_kind t = Bool_ \/ d_kind t = Int_ \/ d_kind t = UInt_)) -> ufunc_dtype outs None = None) /\
  ((forall t, In t outs -> d_kind t <> Bool_ /\ d_kind t <> Int_ /\ d_kind t <> UInt_) -> (exists t, In t outs /\ d_kind t = Float_) -> ufunc_dtype outs None = Some (Dt Float_ 8 true)) /\
  ((forall t, In t outs -> d_kind t = Complex_ \/ d_kind t = Object_ \/ d_kind t = Other_) -> ufunc_dtype outs None = Some (Dt Complex_ 16 true)) /\
  forall d, ufunc_dtype outs (Some d) = Some d.
Proof.
  intros outs. unfold ufunc_dtype. split; [|split; [|split; [|reflexivity]]].
  - intros (t & I & Kt). match goal with |- (if forallb ?f outs then _ else if forallb ?g outs then _ else _) = _ => destruct (forallb f outs) eqn:E; [|destruct (forallb g outs) eqn:E'; [|reflexivity]] end.
    + rewrite forallb_forall in E. specialize (E t I). destruct Kt as [Kt|[Kt|Kt]]; rewrite Kt in E; discriminate E.
    + rewrite forallb_forall in E'. specialize (E' t I). destruct Kt as [Kt|[Kt|Kt]]; rewrite Kt in E'; discriminate E'.
  - intros A (t & I & Kt). match goal with |- (if forallb ?f outs then _ else if forallb ?g outs then _ else _) = _ => destruct (forallb f outs) eqn:E; [|destruct (forallb g outs) eqn:E'; [reflexivity|]] end.
    + rewrite forallb_forall in E. specialize (E t I). rewrite Kt in E. discriminate E.
    + exfalso. apply Bool.not_true_iff_false in E'. apply E', forallb_forall. intros u Iu. destruct (A u Iu) as (? & ? & ?). destruct (d_kind u); auto; congruence.
  - intros A. match goal with |- (if forallb ?f outs then _ else if forallb ?g outs then _ else _) = _ => destruct (forallb f outs) eqn:E; [reflexivity|] end.
    exfalso. apply Bool.not_true_iff_false in E. apply E, forallb_forall. intros u Iu. destruct (A u Iu) as [Ku|[Ku|Ku]]; rewrite Ku; reflexivity.
Qed.
Example ufunc_exp : ufunc_dtype [Dt Float_ 2 true; Dt Float_ 4 true; Dt Float_ 8 true; Dt Complex_ 8 true; Dt Object_ 8 true] None = Some (Dt Float_ 8 true) /\ ufunc_dtype [Dt Int_ 1 true; Dt Float_ 4 true] None = None. Proof. split; reflexivity. Qed.

(** * Examples *)
Notation i1 := (Dt Int_ 1 true). Notation i2 := (Dt Int_ 2 true). Notation i8 := (Dt Int_ 8 true). Notation u1 := (Dt UInt_ 1 true). Notation f2 := (Dt Float_ 2 true). Notation f4 := (Dt Float_ 4 true). Notation f8 := (Dt Float_ 8 true). Notation c8 := (Dt Complex_ 8 true). Notation c16 := (Dt Complex_ 16 true).
Example common_runs : common_type [Some f4; Some i2] = Some f4 /\ common_type [Some f4; Some i8] = Some f8 /\ common_type [Some f8; None; Some c8] = Some c16 /\ common_type [Some i1; Some u1] = Some i2 /\ common_type [None; None] = None /\
  common_type [Some (Dt Float_ 8 false)] = Some (Dt Float_ 8 false) /\ common_type [Some (Dt Float_ 8 false); Some f4] = Some f8.
Proof. repeat split. Qed.
Example unmixed_some : Forall numeric [f4; i8; c8] /\ unmixed [f4; i8; c8]. Proof. split; [repeat constructor; cbn; tauto|left; intros t [<-|[<-|[<-|[]]]]; discriminate]. Qed.
Example exact_int : represents i2 (inject_Z (-32768), 0%Q) /\ represents f4 (inject_Z (-32768), 0%Q).
Proof.
  assert (R : represents i2 (inject_Z (-32768), 0%Q)) by (split; [exists (-32768)%Z; split; [cbn; lia|reflexivity]|reflexivity]). split; [exact R|]. apply (C46_exact i2 f4); [cbn; tauto|cbn; tauto|reflexivity| |exact R]. intros (_ & N & _). discriminate N.
Qed.
(** Arrays of one integer; integers of 8 bits wrap around *)
Definition wrap (t : dtype) (v : Z) : Z := if dtype_eqb t i1 then ((v + 128) mod 256 - 128)%Z else v.
Definition negate_ (d : option dtype) : oper Z := Oper d (fun _ t v => wrap t (- v)).
Definition double_ : oper Z := Oper None (fun _ t v => wrap t (2 * v)).
Definition plain (d : option dtype) : oper Z := Oper d (fun _ _ v => v).
Example product_run : call wrap (composition [negate_ (Some c8); plain None; plain (Some f8)]) (Array i1 5%Z) None = Ok (Array c16 (-5)%Z) /\ one_by_one wrap [negate_ (Some c8); plain None; plain (Some f8)] (Array i1 5%Z) = Ok (Array c16 (-5)%Z).
Proof. split; reflexivity. Qed.
Example sum_run : call wrap (addition (fun t v w => wrap t (v + w)) (plain (Some f4)) [plain None]) (Array i1 5%Z) (Some f4) = Ok (Array f4 10%Z) /\ call wrap (addition (fun t v w => wrap t (v + w)) (plain (Some f4)) [plain None]) (Array i1 5%Z) (Some f8) = Raise ValueError.
Proof. split; reflexivity. Qed.
(** The conversions of arrays of one number that does not change *)
Example faithful_some : faithful (fun _ (v : Z) => v). Proof. intros s t u v _ _. unfold convert. destruct (dtype_eqb s t), (dtype_eqb t u), (dtype_eqb s u); reflexivity. Qed.
Example compatible_some : compatible (fun _ v => v) (Oper (Some f4) (fun _ _ v => (3 * v)%Z)). Proof. intros s t v _. unfold convert. cbn. destruct (dtype_eqb s t); reflexivity. Qed.

(** * What does not hold *)
(** numpy's common types are not associative: with signed and unsigned integers, the type of the result of a product is not that of its operands called one by one.  (x of type int8, B of type uint8,
    A of type float16: (A * B)(x) is a float16, A(B(x)) a float32.) *)
Theorem C46_mixed_refuted : ~ forall ops (x : array Z), numeric (a_dtype x) -> Forall numeric (somes (map o_dtype ops)) -> Forall (compatible (fun _ v => v)) ops -> call (fun _ v => v) (composition ops) x None = one_by_one (fun _ v => v) ops x.
Proof.
  intros H. assert (X : call (fun _ v => v) (composition [plain (Some f2); plain (Some u1)]) (Array i1 5%Z) None = one_by_one (fun _ v => v) [plain (Some f2); plain (Some u1)] (Array i1 5%Z)).
  - apply H; [cbn; tauto|repeat constructor; cbn; tauto|]. repeat constructor; intros s t v _; reflexivity.
  - discriminate X.
Qed.
(** The input of a product is converted before the first operand is applied: with operators that do not compute the same with larger types, as those on integers that overflow, the result is not that
    of the operands called one by one. *)
Theorem C46_values_refuted : ~ forall V (astype : dtype -> V -> V) ops x, numeric (a_dtype x) -> Forall numeric (somes (map o_dtype ops)) -> unmixed (a_dtype x :: somes (map o_dtype ops)) -> call astype (composition ops) x None = one_by_one astype ops x.
Proof.
  intros H. assert (X : call wrap (composition [plain (Some f8); double_]) (Array i1 100%Z) None = one_by_one wrap [plain (Some f8); double_] (Array i1 100%Z)).
  - apply H; [cbn; tauto|repeat constructor; cbn; tauto|]. left. intros t [<-|[<-|[]]]; discriminate.
  - vm_compute in X. discriminate X.
Qed.
(** The integers of 64 bits are converted to floating-point numbers of 64 bits, which do not represent all of them: calling an operator of type float64 with them rounds the input. *)
Theorem C46_exact_refuted : ~ forall s t z, numeric s -> numeric t -> common_type [Some s; Some t] = Some t -> represents s z -> represents t z.
Proof.
  intros H. assert (X : represents f8 (inject_Z (2 ^ 53 + 1), 0%Q)).
  - apply (H i8 f8); [cbn; tauto|cbn; tauto|reflexivity|]. split; [|reflexivity]. exists (2 ^ 53 + 1)%Z. split; [cbn; lia|reflexivity].
  - destruct X as [(m & e & Hm & He & E) _]. cbn [fst] in E. unfold Qeq, inject_Z, Qmult in E. cbn [Qnum Qden] in E. destruct e as [|e|e].
    + cbn in E. cbn in Hm. lia.
    + assert (Q : (Qpower 2 (Z.pos e) == inject_Z (2 ^ Z.pos e))%Q) by (rewrite Zpower_Qpower by lia; reflexivity).
      assert (E' : (inject_Z (2 ^ 53 + 1) == inject_Z (m * 2 ^ Z.pos e))%Q) by (rewrite inject_Z_mult, <- Q; exact E). unfold Qeq, inject_Z in E'. cbn [Qnum Qden] in E'. rewrite !Z.mul_1_r in E'.
      assert (2 ^ Z.pos e = 2 * 2 ^ (Z.pos e - 1))%Z as P by (rewrite <- Z.pow_succ_r by lia; f_equal; lia). rewrite P in E'. change (2 ^ 53 + 1)%Z with 9007199254740993%Z in E'. lia.
    + assert (Q : (Qpower 2 (Z.neg e) * inject_Z (2 ^ Z.pos e) == 1)%Q). { rewrite Zpower_Qpower by lia. rewrite <- Qpower_plus by discriminate. replace (Z.neg e + Z.pos e)%Z with 0%Z by lia. reflexivity. }
      assert (E' : (inject_Z ((2 ^ 53 + 1) * 2 ^ Z.pos e) == inject_Z m)%Q). { rewrite inject_Z_mult. assert (E2 : (inject_Z (2 ^ 53 + 1) == inject_Z m * Qpower 2 (Z.neg e))%Q) by exact E. rewrite E2, <- Qmult_assoc, Q, Qmult_1_r. reflexivity. }
      unfold Qeq, inject_Z in E'. cbn [Qnum Qden] in E'. rewrite !Z.mul_1_r in E'. assert (2 <= 2 ^ Z.pos e)%Z by (change 2%Z with (2 ^ 1)%Z at 1; apply Z.pow_le_mono_r; lia). change (2 ^ 53 + 1)%Z with 9007199254740993%Z in E'. change (2 ^ 53)%Z with 9007199254740992%Z in Hm. nia.
Qed.
(** The type of a diagonal operator depends on the values of the diagonal: it is None if they are all equal to one, and the argument dtype is lost if they are zeros and ones, because the operator becomes
    a MaskOperator.  DiagonalOperator([1., 1.]) and DiagonalOperator([1, 0], dtype=float) return integers for integers. *)
Theorem C46_diagonal_refuted : (~ forall c c' t d, diagonal_dtype c t d = diagonal_dtype c' t d) /\ ~ forall c t d, diagonal_dtype c t (Some d) = Some d.
Proof. split; intros H; [discriminate (H Ones Mixed f8 None)|discriminate (H ZerosAndOnes i8 f8)]. Qed.
(** The product of an operator by a Python integer does not have the type of the operator: 2 * A gives double precision for single precision inputs. *)
Theorem C46_scalar_refuted : ~ forall V (astype : dtype -> V -> V) (times : dtype -> V -> V) (o : oper V) x y z, call astype o x None = Ok y -> call astype (composition [Oper (diagonal_dtype Same i8 None) (fun _ t v => times t v); o]) x None = Ok z -> a_dtype z = a_dtype y.
Proof. intros H. discriminate (H Z (fun _ v => v) (fun _ v => (2 * v)%Z) (plain (Some f4)) (Array f4 3%Z) (Array f4 3%Z) (Array f8 6%Z) eq_refl eq_refl). Qed.
(** An operator made of a ufunc, such as numpy.exp, that has a loop for single precision gives double precision for single precision inputs. *)
Theorem C46_ufunc_refuted : ~ forall outs t, In t outs -> numeric t -> common_type [Some t; ufunc_dtype outs None] = Some t.
Proof. intros H. assert (X := H [f2; f4; f8; Dt Float_ 16 true; c8; c16; Dt Complex_ 32 true; Dt Object_ 8 true] f4 ltac:(cbn; tauto) ltac:(cbn; tauto)). discriminate X. Qed.
(** There is no complex type of 4 bytes: half precision becomes double precision, not the single precision that suffices, and does not come back. *)
Theorem C46_half_refuted : ~ forall t c f, numeric t -> d_kind t = Float_ -> complex_dtype t = Ok c -> float_dtype c = Ok f -> (f = t \/ can_cast t c8 = true /\ c = c8).
Proof. intros H. destruct (H f2 c16 f8 ltac:(cbn; tauto) eq_refl eq_refl eq_refl) as [X|[_ X]]; discriminate X. Qed.

Print Assumptions C46_common. Print Assumptions C46_least. Print Assumptions C46_stepwise. Print Assumptions C46_exact. Print Assumptions C46_call. Print Assumptions C46_product. Print Assumptions C46_one_by_one. Print Assumptions C46_sum. Print Assumptions C46_functions. Print Assumptions C46_functions_error. Print Assumptions C46_ufunc. Print Assumptions C46_mixed_refuted. Print Assumptions C46_values_refuted. Print Assumptions C46_exact_refuted. Print Assumptions C46_diagonal_refuted. Print Assumptions C46_scalar_refuted. Print Assumptions C46_ufunc_refuted. Print Assumptions C46_half_refuted.
