(** C15: the shapes of products and sums. *)
From Verif Require Import Base ShapeModel ShapeSpec ShapeProofs ShapeCompose ShapeRun ShapeSum.

(** Operators used in the examples: Cartesian2SphericalOperator (nonlinear.py 45-229), ReshapeOperator (core.py 3910-3948),
    the reduction along the axis 2 (core.py 4569-4655) and an operator that knows nothing (Operator(direct=...)). *)
Definition ends (n : nat) (s : shape) : bool := match rev s with m :: _ => Nat.eqb m n | [] => false end.
Definition c2s : raw := R None None (Some (fun s => Ok (removelast s ++ [2]))) (Some (fun s => Ok (removelast s ++ [3])))
  (Some (ends 3)) (Some (ends 2)) false.
Definition reshape (s t : shape) : raw := R (Some s) (Some t) None None None None false.
Definition reduce2 : raw := R None None (Some (fun s => Ok (firstn 2 s ++ skipn 3 s))) None (Some (fun s => Nat.leb 3 (length s))) None false.
Definition free : raw := R None None None None None None false.
Definition get (r : raw) : oper := match init r with Ok op => op | Raise _ => O None None None None (fun _ => true) (fun _ => true) false end.

(** The constructor leaves a consistent operator, if the given reshapein and reshapeout are converse to each other on
    valid shapes. *)
Theorem C15_constructor : forall r op,
  (forall f g, r_rin r = Some f -> r_rout r = Some g ->
     forall s t, valid (r_vin r) None s = true -> valid (r_vout r) None t = true -> f s = Ok t <-> g t = Ok s) ->
  init r = Ok op -> well_formed op.
Proof. exact init_wf. Qed.
Theorem C15_constructor_exact : forall r op,
  (forall f g, r_rin r = Some f -> r_rout r = Some g -> forall s t, f s = Ok t <-> g t = Ok s) -> init r = Ok op -> exact op.
Proof. exact init_exact. Qed.

Lemma ends_spec n s : ends n s = true -> s = removelast s ++ [n].
Proof.
  unfold ends. destruct (rev s) as [|m l] eqn:E; [discriminate|]. intros H. apply Nat.eqb_eq in H. subst m.
  assert (s = rev l ++ [n]) as -> by (rewrite <- (rev_involutive s), E; reflexivity). rewrite removelast_last. reflexivity.
Qed.
Lemma c2s_wf : well_formed (get c2s).
Proof.
  apply (C15_constructor c2s); [|reflexivity]. intros f g [= <-] [= <-] s t V1 V2. cbn in V1, V2. apply ends_spec in V1, V2.
  rewrite V1, V2. generalize (removelast s) (removelast t). intros u v. rewrite !removelast_last. split; intros E; injection E as E;
  apply app_inv_tail in E; subst; reflexivity.
Qed.
Lemma reshape_exact s t : exact (get (reshape s t)).
Proof.
  apply (C15_constructor_exact (reshape s t)); [discriminate|]. unfold get.
  assert (exists op, init (reshape s t) = Ok op) as (op & ->); auto.
  unfold init, reshape, valid, default_valid. cbn [r_in r_out r_rin r_rout r_vin r_vout r_square rbind validate].
  do 4 (rewrite ?eqb_refl; cbn [rbind validate]). eauto.
Qed.
Lemma reduce2_wf : exact (get reduce2).
Proof. apply (C15_constructor_exact reduce2); [discriminate|reflexivity]. Qed.
Lemma free_wf : exact (get free).
Proof. apply (C15_constructor_exact free); [discriminate|reflexivity]. Qed.

(** Calling an operator with an output: it is accepted exactly when the two shapes are valid and suit each other. *)
Theorem C15_arguments : forall op s t r, well_formed op -> call_shape op s (Some t) = Ok r <-> admits op s t /\ r = t.
Proof. exact call_given. Qed.
(** Calling it without output: the shape of the result is the one that suits the input, if the operator knows it. *)
Theorem C15_call : forall op s t, well_formed op -> kind_out op <> Unconstrained -> call_shape op s None = Ok t <-> admits op s t.
Proof. exact call_alone. Qed.
Example C15_call_example : call_shape (get c2s) [5; 3] None = Ok [5; 2] /\ call_shape (get c2s) [5; 4] None = Raise ValueError
  /\ admits (get c2s) [5; 3] [5; 2].
Proof. split; [reflexivity|]. split; [reflexivity|]. apply C15_call; [apply c2s_wf|discriminate|reflexivity]. Qed.

(** ** Products *)

(** Compatible operands are not rejected: the product is built, it admits the shapes at both ends, and the intermediate
    shapes that are derived are right. *)
Theorem C15_product_accepts : forall ops ss, ops <> [] -> Forall well_formed ops -> chain admits ops ss ->
  exists c, compose ops = Ok c /\ admits c (last ss []) (hd [] ss).
Proof. exact compose_admits. Qed.
Theorem C15_product_shapes : forall ops ss si so, Forall well_formed ops -> chain linked ops ss ->
  agrees si (last ss []) -> agrees so (hd [] ss) -> exists l, get_shapes si so ops = Ok l /\ Forall2 agrees l ss.
Proof. exact get_shapes_agrees. Qed.
(** The product does what the operands do one after the other. *)
Theorem C15_one_at_a_time : forall ops s ss, ops <> [] -> Forall well_formed ops -> Forall (fun o => kind_out o <> Unconstrained) ops ->
  feed ops s = Ok ss -> exists c, compose ops = Ok c /\ call_shape c s None = Ok (hd [] ss) /\ run_shapes ops s (hd [] ss) = Ok ss.
Proof. exact feed_product. Qed.
Example C15_one_at_a_time_example : exists c, compose [get (reshape [4; 2] [8]); get c2s; get (reshape [12] [4; 3])] = Ok c
  /\ call_shape c [12] None = Ok [8] /\ run_shapes [get (reshape [4; 2] [8]); get c2s; get (reshape [12] [4; 3])] [12] [8] = Ok [[8]; [4; 2]; [4; 3]; [12]].
Proof.
  apply (C15_one_at_a_time _ _ [[8]; [4; 2]; [4; 3]; [12]]).
  - discriminate.
  - repeat (apply Forall_cons; [first [apply c2s_wf | apply reshape_exact]|]). apply Forall_nil.
  - repeat (apply Forall_cons; [discriminate|]). apply Forall_nil.
  - reflexivity.
Qed.

(** Incompatible operands are rejected, by the constructor, when the product is called or when the shapes of the
    intermediate arrays are computed: otherwise these suit all the operands. *)
Theorem C15_product_rejects : forall ops c s out t ss, Forall exact ops -> compose ops = Ok c -> call_shape c s out = Ok t ->
  run_shapes ops s t = Ok ss -> chain linked ops ss /\ hd [] ss = t /\ last ss [] = s /\ forall d, o_vin (last ops d) s = true.
Proof. exact run_sound. Qed.
Example C15_product_rejects_example : compose [get (reshape [4; 2] [8]); get (reshape [12] [4; 3])] = Raise ValueError
  /\ compose [get (reshape [4; 2] [8]); get c2s; get (reshape [12] [3; 4])] = Raise ValueError.
Proof. split; reflexivity. Qed.
(** A product of such operators is one as well. *)
Theorem C15_product_exact : forall ops c, Forall exact ops -> compose ops = Ok c -> exact c.
Proof. exact compose_exact. Qed.
(** When both shapes of the product have been derived, applying it to an array of this shape finds the intermediate
    shapes, unless one of them is not determined by the operands (a ValueError is raised). *)
Theorem C15_derived : forall ops c s t, Forall exact ops -> compose ops = Ok c -> o_in c = Some s -> o_out c = Some t ->
  (exists ss, run_shapes ops s t = Ok ss)
  \/ (run_shapes ops s t = Raise ValueError /\ exists l, get_shapes (Some s) (Some t) ops = Ok l /\ In None l).
Proof. exact derived_run. Qed.
Example C15_derived_example : let ops := [get reduce2; get (reshape [24] [2; 3; 4])] in
  Forall exact ops /\ exists c, compose ops = Ok c /\ o_in c = Some [24] /\ o_out c = Some [2; 3] /\ run_shapes ops [24] [2; 3] = Ok [[2; 3]; [2; 3; 4]; [24]].
Proof.
  split.
  - apply Forall_cons; [apply reduce2_wf|]. apply Forall_cons; [apply reshape_exact|]. apply Forall_nil.
  - eexists. split; [vm_compute; reflexivity|]. vm_compute. auto.
Qed.
(** ... which does happen: a free operator between two explicit ones. *)
Theorem C15_derived_refuted : exists ops c s t, Forall exact ops /\ compose ops = Ok c /\ call_shape c s None = Ok t
  /\ o_in c = Some s /\ o_out c = Some t /\ run_shapes ops s t = Raise ValueError.
Proof.
  exists [get (R None (Some [8]) None None None None false); get free; get (R (Some [12]) None None None None None false)]. eexists. exists [12], [8]. split.
  - apply Forall_cons; [apply (C15_constructor_exact (R None (Some [8]) None None None None false)); [discriminate|reflexivity]|].
    apply Forall_cons; [apply free_wf|].
    apply Forall_cons; [apply (C15_constructor_exact (R (Some [12]) None None None None None false)); [discriminate|reflexivity]|]. apply Forall_nil.
  - split; [vm_compute; reflexivity|]. vm_compute. auto.
Qed.

(** The validation methods of the operands other than the first and the last are not called: a reduction along the axis
    2 may be composed with an operator whose output has two dimensions, although it refuses such an array. *)
Theorem C15_intermediate_refuted : exists ops c s t ss, Forall exact ops /\ compose ops = Ok c /\ call_shape c s None = Ok t
  /\ run_shapes ops s t = Ok ss /\ ~ chain admits ops ss /\ feed ops s = Raise ValueError.
Proof.
  exists [get reduce2; get (reshape [12] [3; 4])]. eexists. exists [12], [3; 4], [[3; 4]; [3; 4]; [12]]. split.
  - apply Forall_cons; [apply reduce2_wf|]. apply Forall_cons; [apply reshape_exact|]. apply Forall_nil.
  - split; [vm_compute; reflexivity|]. do 2 (split; [vm_compute; reflexivity|]). split; [|vm_compute; reflexivity].
    intros [(V & _) _]. discriminate.
Qed.
(** If the first operand applied does not know its output shape, the product does not know its own: it is taken to be the
    shape of the input, even if the operands applied one by one give another shape. *)
Theorem C15_free_refuted : exists ops c s ss t, Forall well_formed ops /\ feed ops s = Ok ss /\ compose ops = Ok c
  /\ call_shape c s None = Ok t /\ run_shapes ops s t <> Raise ValueError /\ hd [] ss <> t.
Proof.
  exists [get c2s; get free]. eexists. exists [5; 3], [[5; 2]; [5; 3]; [5; 3]], [5; 3]. split.
  - apply Forall_cons; [apply c2s_wf|]. apply Forall_cons; [apply free_wf|]. apply Forall_nil.
  - split; [vm_compute; reflexivity|]. split; [vm_compute; reflexivity|]. split; [vm_compute; reflexivity|]. split; vm_compute; discriminate.
Qed.

(** ** Sums and element-wise products *)
Theorem C15_sum_accepts : forall ops s t, ops <> [] -> Forall well_formed ops -> Forall (fun op => admits op s t) ops ->
  exists c, add_shapes ops = Ok c /\ admits c s t.
Proof. exact sum_admits. Qed.
Example C15_sum_example : exists c, add_shapes [get c2s; get (reshape [5; 3] [5; 2])] = Ok c /\ admits c [5; 3] [5; 2].
Proof.
  apply C15_sum_accepts.
  - discriminate.
  - apply Forall_cons; [apply c2s_wf|]. apply Forall_cons; [apply reshape_exact|]. apply Forall_nil.
  - apply Forall_cons; [apply C15_call_example|]. apply Forall_cons; [|apply Forall_nil]. apply C15_call; [apply reshape_exact|discriminate|reflexivity].
Qed.
(** Operands with different explicit shapes are rejected. *)
Theorem C15_sum_rejects : forall ops c s out t, add_shapes ops = Ok c -> call_shape c s out = Ok t -> forall op, In op ops ->
  (forall s', o_in op = Some s' -> s' = s) /\ (forall t', o_out op = Some t' -> t' = t).
Proof. exact sum_rejects. Qed.
(** Nothing is verified for the others: the shape methods of the first implicit operand are those of the sum. *)
Theorem C15_sum_refuted : exists ops c s t, Forall well_formed ops /\ add_shapes ops = Ok c /\ call_shape c s None = Ok t
  /\ exists op, In op ops /\ call_shape op s (Some t) = Raise ValueError.
Proof.
  exists [get c2s; get reduce2]. eexists. exists [4; 4; 3], [4; 4; 2]. split.
  - apply Forall_cons; [apply c2s_wf|]. apply Forall_cons; [apply reduce2_wf|]. apply Forall_nil.
  - split; [vm_compute; reflexivity|]. split; [vm_compute; reflexivity|]. exists (get reduce2). split; [right; left; reflexivity|]. vm_compute. reflexivity.
Qed.

Print Assumptions C15_constructor.
Print Assumptions C15_constructor_exact.
Print Assumptions C15_arguments.
Print Assumptions C15_call.
Print Assumptions C15_product_accepts.
Print Assumptions C15_product_shapes.
Print Assumptions C15_one_at_a_time.
Print Assumptions C15_product_rejects.
Print Assumptions C15_product_exact.
Print Assumptions C15_derived.
Print Assumptions C15_derived_refuted.
Print Assumptions C15_intermediate_refuted.
Print Assumptions C15_free_refuted.
Print Assumptions C15_sum_accepts.
Print Assumptions C15_sum_rejects.
Print Assumptions C15_sum_refuted.
