(** C44: classes and attributes of the results. *)
From Coq Require Import String Ascii.
From Verif Require Import Base AttrModel AttrSpec AttrProofs.
Local Open Scope string_scope.

Section Arrays.
Context (V : Type) (ndarray ndarraywrap : class V) (known : class V -> Prop) (W : world ndarray ndarraywrap known) (S : forall c, known c -> simple c).
Notation call := (call ndarray ndarraywrap).
(** The result of an operator: its attributes are those of attrout and those of the input that are not replaced or dropped; its class is classout or that of the input; numpy.ndarray is replaced by
    ndarraywrap if there are attributes. *)
Theorem C44_result : forall o x e, regular known o -> attrout o = Dict e -> array_ok ndarray known x ->
  exists r, call (propagate o) x None = Ok (r, None) /\ (forall k, get (o_dict r) k = expected o x e k) /\
  o_class r = let c := match classout o with Some c => c | None => o_class x end in if same_class c ndarray && negb (match o_dict r with [] => true | _ => false end) then ndarraywrap else c.
Proof. intros o x e. apply (call_expected _ _ _ W S). Qed.
(** A product gives the same attributes as its operands called one by one, and the same class unless there are no attributes. *)
Theorem C44_composition : forall ops x, Forall (regular known) ops -> array_ok ndarray known x ->
  exists r y, call (propagate_composition ops) x None = Ok (r, None) /\ one_by_one ndarray ndarraywrap ops x = Ok y /\ same_dict (o_dict r) (o_dict y) /\ close ndarray ndarraywrap (o_class r) (o_class y) /\ (o_dict r <> [] -> o_class r = o_class y).
Proof. intros ops x. apply (composition_ok _ _ _ W S). Qed.
(** With the argument out: the same array if out is a numpy.ndarray, which is not changed.  Otherwise out itself is returned; it has the class of the result and its attributes, and keeps those it
    had. *)
Theorem C44_out : forall ops x o, Forall (regular known) ops -> array_ok ndarray known x -> array_ok ndarray known o ->
  exists r, call (propagate_composition ops) x None = Ok (r, None) /\
  (o_class o = ndarray -> call (propagate_composition ops) x (Some o) = Ok (r, Some o)) /\
  (o_class o <> ndarray -> o_class r <> ndarray -> exists r', call (propagate_composition ops) x (Some o) = Ok (r', Some r') /\ o_class r' = o_class r /\ forall k, get (o_dict r') k = match get (o_dict r) k with Some v => Some v | None => get (o_dict o) k end) /\
  (o_class o <> ndarray -> o_class r = ndarray -> call (propagate_composition ops) x (Some o) = Raise TypeError).
Proof.
  intros ops x o F Ax Ao. destruct (one_by_one_ok _ _ _ W S ops x F Ax) as (y & c & d & _ & P & _ & Kc & Wd & _). exact (call_out _ _ _ W S _ x o c d P Kc Wd Ao).
Qed.
(** The operator that a rule puts in the place of operands propagates attributes as they do, if the classes have the same class attributes and no operand sets shape_global. *)
Theorem C44_merged : (forall c c' k, known c -> known c' -> isclassattr k c = true -> isclassattr k c' = true) ->
  forall ops c d, ops <> [] -> Forall (regular known) ops -> Forall (fun o => no_shape (attrout o)) ops -> known c -> well_formed d ->
  fst (propagate (merge_composition ops) c d) = fst (propagate_composition ops c d) /\ same_dict (snd (propagate (merge_composition ops) c d)) (snd (propagate_composition ops c d)).
Proof. intros Same ops c d. apply (merge_composition_ok known Same). Qed.
End Arrays.
(** The transpose propagates attrin and classin; that of a product is the product of the transposes in the reverse order; the transpose of the transpose propagates like the operator, and so does
    the conjugate. *)
Theorem C44_transpose : forall V (o : oper V) c d, propagate (transposed false o) c d = propagate (Oper (attrout o) (attrin o) (classout o) (classin o)) c d.
Proof. intros V o c d. apply equal_propagate. unfold equal_oper, transposed, swap. cbn [attrin attrout classin classout]. repeat split; intros e; apply init_apply. Qed.
Theorem C44_transpose_product : forall V (ops : list (oper V)), equal_oper (transposed false (merge_composition ops)) (merge_composition (rev (map (transposed false) ops))).
Proof. intros V ops. apply swap_composition. Qed.
Theorem C44_transpose_twice : forall V (o : oper V), equal_oper (transposed false (transposed false o)) o /\ equal_oper (same o) o.
Proof. intros V o. split; [apply swap_swap|apply same_same]. Qed.
(** Sums and element-wise products propagate like their first operand, if it has a class or if none of the others has. *)
Theorem C44_sum : forall V (o : oper V) ops c d, classout o <> None \/ Forall (fun p => classout p = None) ops -> propagate (merge_commutative o ops) c d = propagate o c d.
Proof.
  intros V o ops c d H. unfold propagate, merge_commutative. cbn [classout attrout map first_class]. destruct (classout o) as [c'|] eqn:E; [reflexivity|]. destruct H as [H|H]; [congruence|].
  assert (first_class (map classout ops) = None) as ->; [|reflexivity]. induction H as [|p l Hp _ IH]; cbn; [reflexivity|]. rewrite Hp. exact IH.
Qed.
(** Properties: the value of a property replaces the one of the attribute in which it is stored, if the name of the latter begins with an underscore, and its own with a lower-case letter. *)
Theorem C44_property : forall V (c : class V) old d k v, well_formed d -> get d k = Some v -> (forall k', get d k' <> None -> k' <> k -> storage c k' = storage c k -> String.leb k k' = false) ->
  get (set_attributes c old d) (storage c k) = Some v.
Proof. intros V c old d k v. apply set_attributes_last. Qed.
Theorem C44_underscore : forall a s t, (95 < N_of_ascii a)%N -> String.leb (String a s) (String "_" t) = false.
Proof. intros a s t. apply underscore. Qed.

(** * Examples *)
Definition plain (i : nat) (attributes : list string) : class nat := Class i attributes (fun _ => None) [].
Definition nd := plain 0 ["T"; "shape"].
Definition wrap := plain 1 ["T"; "shape"].
(** a class with the class attribute unit, and another one without *)
Definition map_class := plain 2 ["T"; "shape"; "unit"].
Definition tod_class := plain 3 ["T"; "shape"].
Definition known_ex (c : class nat) : Prop := In c [nd; wrap; map_class; tod_class].
Lemma world_ex : world nd wrap known_ex.
Proof.
  split.
  - intros c c' H H' E. repeat (destruct H as [<-|H]; [repeat (destruct H' as [<-|H']; [first [reflexivity|discriminate]|]); destruct H'|]). destruct H.
  - split; [left; reflexivity|]. split; [right; left; reflexivity|discriminate].
  - intros c a H E. repeat (destruct H as [<-|H]; [revert E; unfold isclassattr; cbn; destruct (a =? "T"), (a =? "shape"), (a =? "unit"); cbn; congruence|]). destruct H.
  - reflexivity.
Qed.
Lemma simple_ex : forall c, known_ex c -> simple c.
Proof. intros c H. repeat (destruct H as [<-|H]; [split; reflexivity|]). destruct H. Qed.
Definition project : oper nat := Oper (Dict [("kind", 7)]) (Dict [("nsamples", 5); ("shape_global", 4)]) (Some map_class) (Some tod_class).
Definition label : oper nat := Oper (Dict []) (Dict [("label", 3)]) None None.
Lemma regular_ex : Forall (regular known_ex) [label; project].
Proof.
  repeat (apply Forall_cons || apply Forall_nil); repeat split; try exact I; try (repeat constructor; cbn; intuition congruence).
Qed.
Definition sky : object nat := Object map_class [("unit", 1); ("header", 2); ("shape_global", 9)].
Lemma array_ex : array_ok nd known_ex sky.
Proof. split; [right; right; left; reflexivity|]. split; [repeat constructor; cbn; intuition congruence|discriminate]. Qed.
Example C44_composition_example : Forall (regular known_ex) [label; project] /\ array_ok nd known_ex sky /\
  call nd wrap (propagate_composition [label; project]) sky None = Ok (Object tod_class [("header", 2); ("label", 3); ("nsamples", 5)], None) /\
  one_by_one nd wrap [label; project] sky = Ok (Object tod_class [("header", 2); ("label", 3); ("nsamples", 5)]).
Proof. split; [exact regular_ex|]. split; [exact array_ex|]. split; vm_compute; reflexivity. Qed.
Example C44_wrap_example : call nd wrap (propagate label) (Object nd []) None = Ok (Object wrap [("label", 3)], None).
Proof. vm_compute. reflexivity. Qed.
Example C44_transpose_example : call nd wrap (propagate (transposed false (merge_composition [label; project]))) (Object tod_class [("nsamples", 5)]) None = Ok (Object map_class [("kind", 7); ("nsamples", 5)], None).
Proof. vm_compute. reflexivity. Qed.

(** * False claims *)
(** The argument out keeps attributes of an earlier computation, that the result does not have. *)
Theorem C44_stale_refuted : let out := Object wrap [("old", 8)] in
  call nd wrap (propagate label) (Object nd []) None = Ok (Object wrap [("label", 3)], None) /\ call nd wrap (propagate label) (Object nd []) (Some out) = Ok (Object wrap [("old", 8); ("label", 3)], Some (Object wrap [("old", 8); ("label", 3)])).
Proof. split; vm_compute; reflexivity. Qed.
(** An operator without attributes, an array without attributes, and the result of another operator as argument out: the call fails with TypeError, after the computation. *)
Theorem C44_class_refuted : let o := Oper (Dict []) (Dict []) None None in call nd wrap (propagate o) (Object nd []) (Some (Object wrap [("label", 3)])) = Raise TypeError.
Proof. vm_compute. reflexivity. Qed.
(** The attributes beginning with an underscore are not set first ('the iteration is sorted by key, so that attributes beginning with an underscore are set first'): not before those beginning with
    an upper-case letter.  The property Unit of the result is the one of the input, and not that given by attrout; for the property unit it is the latter. *)
Definition property_class : class nat := Class 4 ["T"; "shape"; "Unit"; "unit"] (fun k => if k =? "Unit" then Some "_Unit" else if k =? "unit" then Some "_unit" else None) [].
Theorem C44_property_refuted : let o := Oper (Dict []) (Dict [("Unit", 5); ("unit", 5)]) None None in
  call nd wrap (propagate o) (Object property_class [("_Unit", 1); ("_unit", 1)]) None = Ok (Object property_class [("_Unit", 1); ("_unit", 5)], None).
Proof. vm_compute. reflexivity. Qed.
(** The transpose of a symmetric operator propagates attrout and classout instead of attrin and classin. *)
Theorem C44_symmetric_refuted : exists (o : oper nat) c d, propagate (transposed true o) c d = propagate o c d /\ propagate (transposed false o) c d <> propagate (transposed true o) c d.
Proof. exists project, tod_class, []. split; [reflexivity|vm_compute; discriminate]. Qed.
(** The attributes of the second operand of a sum are lost, even if the first one has none; its class is not. *)
Theorem C44_sum_refuted : let o := Oper (Dict []) (Dict []) None None in call nd wrap (propagate (merge_commutative o [project])) (Object nd []) None = Ok (Object tod_class [], None).
Proof. vm_compute. reflexivity. Qed.
(** A product that is simplified by a rule may propagate other attributes: here the class attribute unit, which the intermediate class does not have, is kept. *)
Theorem C44_merged_refuted : let up := Oper (Dict []) (Dict []) None (Some map_class) in
  propagate_composition [up; project] map_class [("unit", 1)] = (map_class, [("nsamples", 5)]) /\ propagate (merge_composition [up; project]) map_class [("unit", 1)] = (map_class, [("unit", 1); ("nsamples", 5); ("shape_global", 4)]).
Proof. split; vm_compute; reflexivity. Qed.
(** The class of the result of a product may be numpy.ndarray when it is ndarraywrap for its operands called one by one. *)
Theorem C44_wrap_refuted : let forget := Oper (Dict []) (Function (fun _ => [])) None None in
  call nd wrap (propagate_composition [forget; label]) (Object nd []) None = Ok (Object nd [], None) /\ one_by_one nd wrap [forget; label] (Object nd []) = Ok (Object wrap []).
Proof. split; vm_compute; reflexivity. Qed.
(** A class whose __array_finalize__ sets attributes: a product forgets those of the intermediate class, that its operands called one by one keep. *)
Theorem C44_finalize_refuted : let calibrated := Class 5 ["T"; "shape"] (fun _ => None) [("gain", 6)] in let a := Oper (Dict []) (Dict []) None (Some calibrated) in let b := Oper (Dict []) (Dict []) None (Some tod_class) in
  call nd wrap (propagate_composition [b; a]) (Object nd []) None = Ok (Object tod_class [], None) /\ one_by_one nd wrap [b; a] (Object nd []) = Ok (Object tod_class [("gain", 6)]).
Proof. split; vm_compute; reflexivity. Qed.

Print Assumptions C44_result.
Print Assumptions C44_composition.
Print Assumptions C44_out.
Print Assumptions C44_merged.
Print Assumptions C44_transpose.
Print Assumptions C44_transpose_product.
Print Assumptions C44_transpose_twice.
Print Assumptions C44_sum.
Print Assumptions C44_property.
Print Assumptions C44_underscore.
Print Assumptions C44_stale_refuted.
Print Assumptions C44_class_refuted.
Print Assumptions C44_property_refuted.
Print Assumptions C44_symmetric_refuted.
Print Assumptions C44_sum_refuted.
Print Assumptions C44_merged_refuted.
Print Assumptions C44_wrap_refuted.
Print Assumptions C44_finalize_refuted.
