(** C69: the text of an operator tells operators apart. *)
From Coq Require Import List Arith ZArith Ascii String Lia.
From Verif Require Import Base LabelModel LabelSpec LabelProofs.
Import ListNotations.

(** The text of a shape gives the shape back. *)
Theorem C69_shapes : unambiguous (fun s => strshape s Disabled).
Proof.
  intros [s|] [s'|] E; [f_equal; apply strshape_inj, E| | |reflexivity]; exfalso; pose proof (strshape_letters) as L.
  - specialize (L s). cbn beta in E. rewrite E in L. inversion L as [|? ? [D|D] _]; cbv in D; intuition discriminate.
  - specialize (L s'). cbn beta in E. rewrite <- E in L. inversion L as [|? ? [D|D] _]; cbv in D; intuition discriminate.
Qed.
Example C69_shapes_case : strshape (Some [12; 3]) Disabled = lit "(12,3)" /\ strshape (Some [123]) Disabled = lit "123" /\ strshape (Some []) Disabled = lit "()" /\ strshape None Disabled = lit "None".
Proof. repeat split. Qed.

(** With a broadcast, it also gives the broadcast back, but for the shape of a single number. *)
Theorem C69_broadcast s s' b b' : strshape (Some s) b = strshape (Some s') b' -> s = s' /\ (b = b' \/ s = []).
Proof. apply strshape_broadcast. Qed.
Example C69_broadcast_case : strshape (Some [2]) Leftward = lit "(...,2)" /\ strshape (Some [2]) Rightward = lit "(2,...)" /\ strshape (Some []) Leftward = strshape (Some []) Rightward.
Proof. repeat split. Qed.

(** Two linear operators with the same text, one at least of whose shapes is explicit, have the same explicit shapes and the same shown name. *)
Theorem C69_linear o o' : shows_shapes o -> shows_shapes o' -> str o = str o' ->
  shapein o = shapein o' /\ shapeout o = shapeout o' /\ option_map shown_name (name o) = option_map shown_name (name o').
Proof.
  intros A B E. pose proof A as (_ & N & _). pose proof B as (_ & N' & _). destruct (name o) as [n|] eqn:Hn; [|congruence]. destruct (name o') as [n'|] eqn:Hn'; [|congruence].
  rewrite (str_shows Hn A), (str_shows Hn' B) in E. apply split_at in E; [|apply prefix_no_space..]. destruct E as [P Q]. destruct (prefix_inj A B P) as [I O].
  split; [exact I|split; [exact O|cbn [option_map]; f_equal; exact Q]].
Qed.
Example C69_linear_case : shows_shapes matrix /\ str matrix = lit "2x3 dense" /\ shows_shapes mask /\ str mask = lit "(2,3)² mask".
Proof. repeat split; (discriminate || (left; discriminate) || reflexivity). Qed.

(** The text of a linear operator is the shapes, when one is explicit, and the name; an operator that is not initialised says so. *)
Theorem C69_layout o :
  (name o = None -> str o = class_name o ++ lit " [not initialized]") /\
  (forall n, name o = Some n -> linear o = false \/ shapein o = None /\ shapeout o = None -> str o = shown_name n) /\
  (forall n m k, name o = Some n -> linear o = true -> shapeout o = Some [m] -> shapein o = Some [k] -> str o = str_nat m ++ lit "x" ++ str_nat k ++ lit " " ++ shown_name n) /\
  (forall n s, name o = Some n -> linear o = true -> square o = true -> shapein o = Some s -> (2 <= List.length s)%nat -> str o = strshape (Some s) Disabled ++ lit "² " ++ shown_name n) /\
  (forall n m, name o = Some n -> linear o = true -> shapeout o = Some [m] -> shapein o = None -> str o = str_nat m ++ lit "x? " ++ shown_name n).
Proof.
  unfold str. split; [intros ->; reflexivity|]. split; [|split; [|split]].
  - intros n -> [-> |[-> ->]]; [reflexivity|]. destruct (linear o); reflexivity.
  - intros n m k -> -> -> ->. destruct (square o); cbn; rewrite <- !app_assoc; reflexivity.
  - intros n s -> -> -> -> L. apply Nat.ltb_lt in L. rewrite L. cbn [andb orb]. rewrite <- !app_assoc. reflexivity.
  - intros n m -> -> -> ->. destruct (square o); cbn; rewrite <- !app_assoc; reflexivity.
Qed.
Example C69_layout_case : str {| name := Some (lit "Operator"); class_name := []; linear := false; square := false; shapein := None; shapeout := None |} = lit "operator" /\
  str {| name := None; class_name := lit "DenseOperator"; linear := false; square := false; shapein := None; shapeout := None |} = lit "DenseOperator [not initialized]".
Proof. split; reflexivity. Qed.

(** The plain Operator keeps its name, in lower case. *)
Theorem C69_plain o : name o = Some (lit "Operator") -> linear o = false -> str o = lit "operator".
Proof. intros N L. destruct (C69_layout o) as (_ & H & _). rewrite (H (lit "Operator") N (or_introl L)). reflexivity. Qed.
Print Assumptions C69_plain.
Example C69_plain_case : exists o, name o = Some (lit "Operator") /\ linear o = false.
Proof. exists {| name := Some (lit "Operator"); class_name := []; linear := false; square := false; shapein := None; shapeout := None |}. split; reflexivity. Qed.

(** The name of a class BOperator is shown as B in lower case, and so is B; B has no capital O. *)
Theorem C69_name o b : b <> [] -> ~ In "O"%char b -> name o = Some (b ++ lit "Operator") \/ name o = Some b -> linear o = false -> str o = map small b.
Proof.
  intros N O H L. rewrite <- (map_ext _ _ lower_small b). destruct (shown_suffix N O) as [P Q]. destruct (C69_layout o) as (_ & K & _). destruct H as [H|H]; rewrite (K _ H (or_introl L)); assumption.
Qed.
Print Assumptions C69_name.
Example C69_name_case : ~ In "O"%char (lit "HardThresholding") /\ map small (lit "HardThresholding") = lit "hardthresholding".
Proof. split; [|reflexivity]. cbn. intuition discriminate. Qed.

(** The text of a reshaping gives the two shapes back. *)
Theorem C69_reshape s i s' i' : str_reshape s i = str_reshape s' i' -> s = s' /\ i = i'.
Proof. apply reshape_inj. Qed.
Example C69_reshape_case : str_reshape [2; 3] [6] = lit "(2,3)←6".
Proof. reflexivity. Qed.

(** The text of a multiple of the identity by an integer gives the integer back. *)
Theorem C69_homothety z : exists t, str_homothety (Integer z) = Ok t /\ forall z', str_homothety (Integer z') = Ok t -> z = z'.
Proof.
  rewrite homothety_coefficient. eexists. split; [reflexivity|]. intros z' E. rewrite homothety_coefficient in E. injection E as E. apply app_inv_tail in E. symmetry. apply coefficient_inj, E.
Qed.
Example C69_homothety_case : str_homothety (Integer (-12)) = Ok (lit "-12I") /\ str_homothety (Integer (-1)) = Ok (lit "-I") /\ str_homothety (Integer 1) = Ok (lit "I") /\ str_homothety (Integer 11) = Ok (lit "11I").
Proof. repeat split. Qed.

(** The texts of products, maxima and minima tell the reduction and its axis. *)
Theorem C69_reductions r r' a a' t : str_reduction r a = Ok t -> str_reduction r' a' = Ok t -> r = r' /\ a = a'.
Proof. apply reduction_inj. Qed.
Example C69_reductions_case : str_reduction MaxOperator (Some (-1)%Z) = Ok (lit "max(..., axis=-1)") /\ str_reduction ProductOperator None = Ok (lit "product").
Proof. split; reflexivity. Qed.

(** Finding: MinMaxOperator.__str__ (nonlinear.py 530-531) reads self.axis, which neither MinMaxOperator.__init__ nor BlockColumnOperator.__init__ sets:
    str(MinMaxOperator()) and str of any composite that contains it raise AttributeError, for any axis. *)
Theorem C69_minmax_refuted : ~ (forall r a, exists t, str_reduction r a = Ok t) /\ (forall a, str_reduction MinMaxOperator a = Raise AttributeError).
Proof. split; [|reflexivity]. intros H. destruct (H MinMaxOperator None) as [t E]. discriminate E. Qed.

(** Finding: HomothetyOperator.__str__ (core.py 4376-4384) calls int(data) before any test: HomothetyOperator(np.nan) and
    HomothetyOperator(np.inf), which can be built and applied, have no text: str raises ValueError or OverflowError. *)
Theorem C69_infinite_refuted : ~ (forall d, exists t, str_homothety d = Ok t) /\ (forall d, (forall t, str_homothety d <> Ok t) <-> d = Infinite \/ d = NotANumber).
Proof.
  split; [intros H; destruct (H NotANumber) as [t E]; discriminate E|]. intros d. split.
  - intros H. destruct d; [exfalso; eapply H; reflexivity|exfalso; eapply H; reflexivity|left; reflexivity|right; reflexivity].
  - intros [-> | ->] t E; discriminate E.
Qed.

(** Finding: the shapes are shown for linear operators only (core.py 1567): two non-linear operators of different explicit shapes have the same text. *)
Theorem C69_nonlinear_refuted : ~ (forall o o', name o <> None -> name o' <> None -> shapein o <> None -> shapein o' <> None -> str o = str o' -> shapein o = shapein o').
Proof. intros H. specialize (H (rounding 1) (rounding 2)). cbn in H. assert (Some [1] = Some [2]) by (apply H; (discriminate || reflexivity)). discriminate. Qed.

(** The texts of roundings tell the method. *)
Theorem C69_round : unambiguous str_round.
Proof. intros [] [] E; try reflexivity; vm_compute in E; discriminate E. Qed.
Example C69_round_case : str_round rtz = lit "round_trunc" /\ str_round rhte = lit "round_hte".
Proof. split; reflexivity. Qed.

(** Finding: RoundOperator.__str__ (nonlinear.py 753) compares the end of the method with 'rmi' instead of 'tmi': no rounding is ever shown as floor, and
    RoundOperator('rtmi'), which is np.floor, is shown as round_tmi, whereas 'rtpi' and 'rtz' are shown as round_ceil and round_trunc. *)
Theorem C69_floor_refuted : (forall m, str_round m <> lit "round_floor") /\ str_round rtmi = lit "round_tmi" /\ str_round rtpi = lit "round_ceil".
Proof. split; [intros [] E; vm_compute in E; discriminate E|split; reflexivity]. Qed.

Print Assumptions C69_linear.
Print Assumptions C69_broadcast.
Print Assumptions C69_reductions.
