From Verif Require Import Base ShapeModel ShapeSpec ShapeProofs ShapeCompose.

(** ** The ends of the list of shapes *)
Lemma step_out_known op s r : kind_in op <> Unconstrained -> step_out op (Some s) = Ok r -> exists u, r = Some u.
Proof.
  intros N E. cbn [step_out] in E. unfold reshapeout in E. destruct (o_rout op) as [f|] eqn:F.
  - destruct (f s); [|discriminate]. cbn in E. injection E as <-. eauto.
  - injection E as <-. unfold kind_in in N. rewrite F in N. destruct (o_in op); [eauto|]. cbn in N. congruence.
Qed.
Lemma step_in_known op s r : kind_out op <> Unconstrained -> step_in op (Some s) = Ok r -> exists u, r = Some u.
Proof.
  intros N E. cbn [step_in] in E. unfold reshapein in E. destruct (o_rin op) as [f|] eqn:F.
  - destruct (f s); [|discriminate]. cbn in E. injection E as <-. eauto.
  - injection E as <-. unfold kind_out in N. rewrite F in N. destruct (o_out op); [eauto|]. cbn in N. congruence.
Qed.
Definition known (x : option shape) : Prop := x <> None.

Lemma outward_all_known : forall ops s t rest l, Forall (fun o => kind_in o <> Unconstrained) ops -> stepped ops (t :: rest) ->
  outward ops (Some s) rest = Ok l -> Forall known l.
Proof.
  induction ops as [|op ops IH]; intros s t rest l N S E.
  - destruct rest; [|destruct S]. injection E as <-. constructor.
  - destruct rest as [|x rest]; [destruct S|]. destruct S as [S1 S2]. inversion N; subst. cbn [outward] in E.
    destruct (step_out op (Some s)) as [r|] eqn:Er; [|discriminate]. destruct (step_out_known _ _ _ H1 Er) as (u & ->). cbn [rbind] in E.
    destruct (conflict x (Some u)) eqn:Ec; [discriminate|]. cbn [first_known] in E. destruct (outward ops (Some u) rest) as [r'|] eqn:E'; [|discriminate].
    injection E as <-. constructor; [discriminate|eauto].
Qed.
Lemma outward_none : forall ops t rest l, Forall (fun o => o_in o = None) ops -> Forall (eq None) (t :: rest) -> stepped ops (t :: rest) ->
  outward ops None rest = Ok l -> Forall (eq None) l.
Proof.
  induction ops as [|op ops IH]; intros t rest l N F S E.
  - destruct rest; [|destruct S]. injection E as <-. constructor.
  - destruct rest as [|x rest]; [destruct S|]. destruct S as [S1 S2]. inversion N as [|? ? N1 N2]; subst. inversion F as [|? ? F1 F2]; subst. inversion F2; subst. cbn [outward step_out] in E.
    rewrite N1 in E. cbn [rbind conflict first_known] in E. destruct (outward ops None rest) as [r'|] eqn:E'; [|discriminate].
    injection E as <-. constructor; auto. eapply IH with (t := None) (rest := rest); eauto.
Qed.
Lemma stepped_none : forall ops l, Forall (fun o => kind_out o <> Unconstrained) ops -> stepped ops l -> hd None l = None ->
  Forall (eq None) l /\ Forall (fun o => o_out o = None) ops.
Proof.
  induction ops as [|op ops IH]; intros l N S H.
  - destruct l as [|x [|]]; try destruct S. cbn in H. subst. auto.
  - destruct l as [|t [|s l]]; try contradiction. destruct S as [S1 S2]. cbn in H. subst t. inversion N; subst.
    destruct s as [v|]; [destruct (step_in_known _ _ _ H1 S1); discriminate|]. cbn in S1.
    destruct (IH (None :: l) H2 S2 eq_refl) as [F1 F2]. split; auto. constructor; auto. congruence.
Qed.
Lemma Forall_last {X} (P : X -> Prop) l d : Forall P l -> l <> [] -> P (last l d).
Proof. intros F N. eapply Forall_forall; eauto. apply last_in; auto. Qed.

(** the result of get_shapes, taken apart *)
Lemma get_shapes_inv ops si so l : get_shapes si so ops = Ok l -> exists t r r', inward ops si = Ok (t :: r) /\ stepped ops (t :: r)
  /\ conflict so t = false /\ outward ops (first_known t so) r = Ok r' /\ l = first_known t so :: r' /\ length r' = length r.
Proof.
  intros H. unfold get_shapes in H. destruct (inward ops si) as [r|] eqn:E; [|discriminate]. cbn [rbind] in H.
  destruct (inward_stepped _ _ _ E) as [S _]. destruct r as [|t r]; [destruct ops; destruct S|].
  destruct (conflict so t) eqn:Ec; [discriminate|]. destruct (outward ops (first_known t so) r) as [r'|] eqn:E'; [|discriminate].
  injection H as <-. exists t, r, r'. do 5 (split; auto). eapply outward_length; eauto.
Qed.
Lemma known_out_in ops si so l : Forall (fun o => kind_in o <> Unconstrained) ops -> get_shapes si so ops = Ok l -> known (hd None l) -> Forall known l.
Proof.
  intros N H K. apply get_shapes_inv in H as (t & r & r' & _ & S & _ & E & -> & _). cbn in K.
  destruct (first_known t so) as [s|]; [|destruct (K eq_refl)]. constructor; [discriminate|]. eapply outward_all_known; eauto.
Qed.
Lemma unknown_out_in ops si so l : Forall (fun o => kind_out o <> Unconstrained /\ (o_out o = None -> o_in o = None)) ops ->
  get_shapes si so ops = Ok l -> hd None l = None -> Forall (eq None) l /\ Forall (fun o => o_out o = None) ops.
Proof.
  intros N H K. apply get_shapes_inv in H as (t & r & r' & _ & S & _ & E & -> & _). cbn in K. rewrite K in E.
  assert (t = None) as -> by (destruct t; auto; discriminate).
  destruct (stepped_none ops (None :: r)) as [F1 F2]; auto. { eapply Forall_impl; [|exact N]. cbn. tauto. }
  split; auto. constructor; [congruence|]. apply (outward_none ops None r r'); auto.
  rewrite Forall_forall in N, F2 |- *. intros o Ho. apply N; auto.
Qed.

(** ** The constructor keeps the shapes found by _get_shapes *)
Lemma init_same r c : (r_rin r <> None \/ r_square r = true -> known (r_in r) -> known (r_out r)) ->
  (r_rout r <> None \/ r_square r = true -> known (r_out r) -> known (r_in r)) -> init r = Ok c ->
  o_in c = r_in r /\ o_out c = r_out r /\ validate (valid (r_vin r) (r_in r)) (r_in r) = Ok tt
  /\ (r_in r = None -> o_vin c = valid (r_vin r) None) /\ (o_square c = false -> r_out r = None -> o_vout c = valid (r_vout r) None)
  /\ (r_out r = None -> r_rin r <> None -> kind_out c = Implicit) /\ validate (valid (r_vout r) (r_out r)) (r_out r) = Ok tt.
Proof.
  intros H1 H2 H. unfold init in H.
  match type of H with rbind ?x _ = _ => destruct x as [so|] eqn:Eso; [cbn [rbind] in H|discriminate] end.
  match type of H with rbind ?x _ = _ => destruct x as [si|] eqn:Esi; [cbn [rbind] in H|discriminate] end.
  match type of H with rbind ?x _ = _ => destruct x as [[]|] eqn:E1; [cbn [rbind] in H|discriminate] end.
  match type of H with rbind ?x _ = _ => destruct x as [[]|] eqn:E2; [cbn [rbind] in H|discriminate] end.
  injection H as <-. cbn [o_in o_out o_vin o_vout o_square].
  assert (so = r_out r) as ->.
  { destruct (r_in r) as [s|]; [|congruence]. destruct (r_rin r) as [f|].
    - destruct (r_out r) as [t|]; [|exfalso; apply H1; auto; try (left; discriminate); discriminate].
      destruct (f s) as [t'|]; [|discriminate]. cbn [rsome rbind] in Eso.
      destruct (validate_cases (valid (r_vout r) (Some t)) (Some t')) as [Ev|[e Ev]]; rewrite Ev in Eso; [|discriminate]. cbn in Eso. congruence.
    - cbn [rbind] in Eso. destruct (r_out r) as [t|]; [|congruence].
      destruct (validate_cases (valid (r_vout r) (Some t)) (Some t)) as [Ev|[e Ev]]; rewrite Ev in Eso; [|discriminate]. cbn in Eso. congruence. }
  assert (si = r_in r) as ->.
  { destruct (r_out r) as [t|]; [|congruence]. destruct (r_rout r) as [f|].
    - destruct (r_in r) as [s|]; [|exfalso; apply H2; auto; try (left; discriminate); discriminate].
      destruct (f t) as [t'|]; [|discriminate]. cbn [rsome rbind] in Esi.
      destruct (validate_cases (valid (r_vin r) (Some s)) (Some t')) as [Ev|[e Ev]]; rewrite Ev in Esi; [|discriminate]. cbn in Esi. congruence.
    - cbn [rbind] in Esi. destruct (r_in r) as [s|]; [|congruence].
      destruct (validate_cases (valid (r_vin r) (Some s)) (Some s)) as [Ev|[e Ev]]; rewrite Ev in Esi; [|discriminate]. cbn in Esi. congruence. }
  unfold kind_out. cbn [o_out o_rin].
  destruct (r_in r) as [s|], (r_out r) as [t|].
  - destruct (shape_eqb s t) eqn:Eq.
    + apply eqb_eq in Eq. subst t. repeat split; auto; discriminate.
    + repeat split; auto; discriminate.
  - destruct (r_square r) eqn:Q; [exfalso; apply H1; auto; discriminate|]. repeat split; auto; try discriminate.
    intros _ N. exfalso. apply H1; auto; discriminate.
  - destruct (r_square r) eqn:Q; [exfalso; apply H2; auto; discriminate|]. repeat split; auto; try discriminate.
  - destruct (r_square r) eqn:Q; repeat split; auto; try discriminate. intros _ N. destruct (r_rin r); [reflexivity|congruence].
Qed.

Lemma compose_inv ops c : Forall well_formed ops -> compose ops = Ok c -> exists op l, (exists ops', ops = op :: ops')
  /\ get_shapes (o_in (last ops op)) (o_out op) ops = Ok l /\ l <> []
  /\ o_in c = last l None /\ o_out c = hd None l /\ validate (o_vin (last ops op)) (last l None) = Ok tt
  /\ (o_in c = None -> o_vin c = o_vin (last ops op)) /\ (o_square c = false -> o_out c = None -> o_vout c = o_vout op)
  /\ (o_out c = None -> merge_reshapein ops <> None -> kind_out c = Implicit) /\ validate (o_vout op) (hd None l) = Ok tt.
Proof.
  intros W H. unfold compose in H. destruct ops as [|op ops]; [discriminate|]. exists op.
  destruct (get_shapes (o_in (last (op :: ops) op)) (o_out op) (op :: ops)) as [l|] eqn:E; [cbn [rbind] in H|discriminate].
  exists l. split; [eauto|]. split; auto.
  assert (N : l <> []) by (apply get_shapes_inv in E as (t & r & r' & _ & _ & _ & _ & -> & _); discriminate). split; auto.
  apply init_same in H; cbn [r_in r_out r_rin r_rout r_vin r_vout r_square valid] in *.
  - destruct H as (-> & -> & H3 & H4 & H5 & H6 & H7). repeat split; auto.
  - intros M K. destruct (hd None l) eqn:Eh; [discriminate|]. exfalso.
    destruct (unknown_out_in (op :: ops) (o_in (last (op :: ops) op)) (o_out op) l) as [F _]; auto.
    + destruct M as [M|M].
      * destruct (merge_reshapein (op :: ops)) as [f|] eqn:Ef; [|congruence]. apply merge_in_spec in Ef as [Ef _]; auto.
        rewrite Forall_forall. intros o Ho. rewrite forallb_forall in Ef. specialize (Ef o Ho). apply implicit_out in Ef as (K' & _).
        split; [congruence|]. intros _. destruct (o_in o) eqn:Eo; auto. destruct (wf_mixed1 o); auto. { eapply Forall_forall; eauto. }
        unfold kind_in. rewrite Eo. reflexivity.
      * rewrite Forall_forall in *. intros o Ho. rewrite forallb_forall in M. specialize (M o Ho). destruct (W o Ho) as (_ & _ & _ & Wq).
        destruct (Wq M) as (Q1 & _ & Q2). split; [|congruence]. destruct (o_in o) eqn:Eo.
        -- unfold kind_out. rewrite <- Q1. discriminate.
        -- destruct (Q2 eq_refl) as (_ & -> & _). discriminate.
    + apply K. symmetry. apply Forall_last with (P := eq None); auto.
  - intros M K. apply (Forall_last known); auto. eapply known_out_in with (ops := op :: ops); eauto.
    destruct M as [M|M].
    + destruct (merge_reshapeout (op :: ops)) as [f|] eqn:Ef; [|congruence]. apply merge_out_spec in Ef as [Ef _]; auto.
      rewrite Forall_forall. intros o Ho. rewrite forallb_forall in Ef. specialize (Ef o Ho). apply implicit_in in Ef as (K' & _). congruence.
    + rewrite Forall_forall in *. intros o Ho. rewrite forallb_forall in M. specialize (M o Ho). destruct (W o Ho) as (_ & _ & _ & Wq).
      destruct (Wq M) as (Q1 & _ & Q2). destruct (o_in o) eqn:Eo.
      * unfold kind_in. rewrite Eo. discriminate.
      * destruct (Q2 eq_refl) as (-> & _). discriminate.
Qed.

(** ** What a product accepts suits its operands *)
Theorem run_sound ops c s t r ss : Forall exact ops -> compose ops = Ok c -> call_shape c s t = Ok r -> run_shapes ops s r = Ok ss ->
  chain linked ops ss /\ hd [] ss = r /\ last ss [] = s /\ forall d, o_vin (last ops d) s = true.
Proof.
  intros W H HC HR. assert (N : ops <> []) by (intros ->; discriminate). destruct (run_linked ops s r ss N W HR) as (C & H1 & H2). do 3 (split; auto).
  intros d. assert (Wc := compose_exact _ _ W H). apply compose_inv in H as (op & l & _ & _ & _ & Hi & _ & Hv & Hn & _); auto.
  rewrite (last_indep ops d op) by auto.
  assert (Vc : o_vin c s = true).
  { unfold call_shape, validate_shapes in HC. cbn [validate] in HC. destruct (o_vin c s); auto. discriminate. }
  destruct (o_in c) as [u|] eqn:Eu.
  - assert (s = u) as -> by (eapply wf_explicit_in; eauto). rewrite <- Hi in Hv. apply (proj1 (validate_ok _ _) Hv u). reflexivity.
  - rewrite <- Hn; auto.
Qed.

Lemma admits_given op s t : admits op s t -> call_shape op s (Some t) = Ok t.
Proof.
  intros (V1 & V2 & L1 & L2). unfold call_shape, validate_shapes. cbn [validate]. rewrite V1, V2. cbn [rbind].
  destruct (kind_out op) eqn:Ko, (kind_in op) eqn:Ki; rewrite ?L1, ?L2; cbn [rbind validate]; rewrite ?L1, ?L2; cbn [rbind validate]; rewrite ?V1, ?V2; cbn [rbind conflict];
      rewrite ?eqb_refl; reflexivity.
Qed.
Lemma admits_alone op s t : kind_out op <> Unconstrained -> admits op s t -> call_shape op s None = Ok t.
Proof.
  intros N (V1 & V2 & L1 & L2). unfold call_shape, validate_shapes. cbn [validate]. rewrite V1. cbn [rbind].
  destruct (kind_out op) eqn:Ko, (kind_in op) eqn:Ki; try congruence; rewrite ?L1, ?L2; cbn [rbind validate]; rewrite ?L1, ?L2; cbn [rbind validate]; rewrite ?V1, ?V2; cbn [rbind conflict];
      rewrite ?eqb_refl; reflexivity.
Qed.

(** ** Products and one operand at a time *)
Lemma feed_chain : forall ops s ss, Forall well_formed ops -> Forall (fun o => kind_out o <> Unconstrained) ops ->
  feed ops s = Ok ss <-> chain admits ops ss /\ last ss [] = s.
Proof.
  induction ops as [|op ops IH]; intros s ss W N.
  - cbn [feed]. split; [intros [= <-]; split; [exact I|reflexivity]|]. intros [C E]. apply chain_nil in C as (u & ->). cbn in E. congruence.
  - inversion W; subst. inversion N; subst. cbn [feed]. split.
    + destruct (feed ops s) as [r|] eqn:E; [|discriminate]. cbn [rbind]. destruct (call_shape op (hd [] r) None) as [t|] eqn:Ec; [|discriminate].
      intros [= <-]. apply IH in E as [C E]; auto. assert (L := chain_length _ _ _ C). destruct r as [|u r]; [discriminate|].
      apply call_alone in Ec; auto. cbn [chain hd] in *. split; auto.
    + intros [C E]. apply chain_cons in C as (t & u & rest & -> & L & C). rewrite last_cons in E.
      assert (feed ops s = Ok (u :: rest)) as -> by (apply IH; auto). cbn [rbind hd].
      apply call_alone in L; auto. rewrite L. reflexivity.
Qed.

Lemma inward_all_known : forall ops s l, Forall (fun o => kind_out o <> Unconstrained) ops -> inward ops (Some s) = Ok l -> Forall known l.
Proof.
  induction ops as [|op ops IH]; intros s l N E; cbn [inward] in E.
  - injection E as <-. constructor; auto. discriminate.
  - inversion N; subst. destruct (inward ops (Some s)) as [r|] eqn:Er; [|discriminate]. cbn [rbind] in E.
    assert (F := IH s r H2 Er). destruct (inward_stepped _ _ _ Er) as [S _]. destruct r as [|x r]; [destruct ops; destruct S|].
    inversion F as [|? ? K K']; subst. destruct x as [x|]; [|destruct (K eq_refl)]. cbn [hd] in E.
    destruct (step_in op (Some x)) as [u|] eqn:Eu; [|discriminate]. destruct (step_in_known _ _ _ H1 Eu) as (v & ->). injection E as <-.
    constructor; auto. discriminate.
Qed.
Lemma outward_keeps : forall ops cur t rest l, stepped ops (t :: rest) -> Forall known rest -> outward ops cur rest = Ok l -> Forall known l.
Proof.
  induction ops as [|op ops IH]; intros cur t rest l S F E.
  - destruct rest; [|destruct S]. injection E as <-. constructor.
  - destruct rest as [|x rest]; [destruct S|]. destruct S as [S1 S2]. cbn [outward] in E. inversion F as [|? ? K K']; subst.
    destruct (step_out op cur) as [s|] eqn:Es; [|discriminate]. cbn [rbind] in E. destruct (conflict x s) eqn:Ec; [discriminate|].
    destruct (outward ops (first_known s x) rest) as [r|] eqn:Er; [|discriminate]. injection E as <-.
    constructor; [|eauto]. destruct s; [discriminate|exact K].
Qed.
Lemma all_known_agrees : forall l ss, Forall2 agrees l ss -> Forall known l -> all_known l = Some ss.
Proof.
  induction 1 as [|a b l ss A F IH]; intros K; auto. inversion K; subst. destruct A as [->| ->]; [destruct (H1 eq_refl)|]. cbn. rewrite IH; auto.
Qed.
Lemma run_complete ops ss : ops <> [] -> Forall well_formed ops -> Forall (fun o => kind_out o <> Unconstrained) ops -> chain linked ops ss ->
  forall s t : shape, last ss [] = s -> hd [] ss = t -> run_shapes ops s t = Ok ss.
Proof.
  intros N W K C s0 t0 Es Et. destruct (get_shapes_agrees ops ss (Some s0) (Some t0)) as (l & E & F); auto; try (right; f_equal; symmetry; assumption).
  unfold run_shapes. rewrite E. cbn [rbind]. rewrite (all_known_agrees l ss); auto.
  apply get_shapes_inv in E as (t & r & r' & E1 & S & _ & E2 & -> & _).
  assert (F1 := inward_all_known _ _ _ K E1). inversion F1; subst. constructor.
  - destruct t; discriminate.
  - eapply outward_keeps; eauto.
Qed.

Theorem feed_product ops (s : shape) (ss : list shape) : ops <> [] -> Forall well_formed ops -> Forall (fun o => kind_out o <> Unconstrained) ops ->
  feed ops s = Ok ss -> exists c, compose ops = Ok c /\ call_shape c s None = Ok (hd [] ss) /\ run_shapes ops s (hd [] ss) = Ok ss.
Proof.
  intros N W K H. apply feed_chain in H as [C <-]; auto. destruct (compose_admits ops ss N W C) as (c & Ec & Ac).
  exists c. split; auto. split; [|apply run_complete; auto; revert C; apply chain_impl; intros o s t Ho; apply Ho].
  apply admits_alone; auto. apply compose_inv in Ec as (op & l & _ & El & Nl & _ & Ho & _ & _ & _ & Hk & _); auto.
  destruct (o_out c) eqn:Eo; [unfold kind_out; rewrite Eo; discriminate|]. rewrite Hk; auto; [discriminate|]. symmetry in Ho.
  assert (F2 : Forall (fun o => o_out o = None) ops).
  { apply get_shapes_inv in El as (t & r & r' & _ & S & _ & E & -> & _). cbn in Ho. destruct t; [discriminate|].
    destruct (stepped_none ops (None :: r)) as [_ F2]; auto. }
  assert (F : forallb (fun o => is_implicit (kind_out o)) ops = true).
  { apply forallb_forall. intros o Hx. rewrite Forall_forall in *. specialize (K o Hx). specialize (F2 o Hx). unfold kind_out in *. rewrite F2 in *.
    destruct (o_rin o); [reflexivity|]. destruct K; reflexivity. }
  unfold merge_reshapein. rewrite F. cbn [negb]. destruct (forallb o_square ops) eqn:Q; [|discriminate].
  rewrite (last_indep _ _ op) by auto. rewrite forallb_forall in F. specialize (F _ (last_in ops op N)). apply implicit_out in F as (_ & f & ->). discriminate.
Qed.

(** ** The shapes of a product are stable: computing them again from its ends gives the same ones *)
Definition below (a b : option shape) : Prop := a = None \/ a = b.
Lemma inward_again : forall ops r0 l t r r', Forall exact ops ->
  stepped ops (t :: r) -> below t r0 -> outward ops r0 r = Ok r' -> l = r0 :: r' ->
  (forall w, o_out (hd (O None None None None (fun _ => true) (fun _ => true) false) ops) = Some w -> r0 = Some w) ->
  exists q, inward ops (last l None) = Ok q /\ Forall2 below (t :: r) q /\ Forall2 below q l.
Proof.
  induction ops as [|op ops IH]; intros r0 l t r r' W S B E -> HO.
  - destruct r; [|destruct S]. cbn [outward] in E. injection E as <-. cbn. exists [r0]. split; auto. split; constructor; auto; try (right; reflexivity).
  - destruct r as [|x r]; [destruct S|]. destruct S as [S1 S2]. inversion W; subst. cbn [outward] in E.
    destruct (step_out op r0) as [s|] eqn:Es; [|discriminate]. cbn [rbind] in E. destruct (conflict x s) eqn:Ec; [discriminate|].
    destruct (outward ops (first_known s x) r) as [q'|] eqn:Eq; [|discriminate]. injection E as <-. rewrite last_cons.
    assert (Bx : below x (first_known s x)).
    { destruct x as [v|]; [|left; auto]. right. destruct s as [u|]; cbn; auto. apply conflict_eq in Ec. congruence. }
    destruct (IH (first_known s x) (first_known s x :: q') x r q') as (q & Ei & F1 & F2); auto.
    { intros w Hw. destruct ops as [|o2 ops]; [discriminate|]. cbn [hd] in Hw. destruct r as [|y r]; [destruct S2|]. destruct S2 as [S2 _].
      inversion H2; subst. assert (x = Some w).
      { destruct y as [v|]; cbn [step_in] in S2; [|congruence]. unfold reshapein in S2. destruct (wf_explicit_out o2 w) as [R _]; auto. rewrite R in S2. congruence. }
      subst x. destruct Bx as [Bx|Bx]; [discriminate|auto]. }
    inversion F1 as [|? y ? q0 B1 F1']; subst. inversion F2 as [|? ? ? ? B2 F2']; subst.
    cbn [inward]. rewrite Ei. cbn [rbind hd].
    (* the step *)
    assert (HS : exists u, step_in op y = Ok u /\ below t u /\ below u r0).
    { destruct (kind_out_cases op) as [(K & w & Ew)|[(K & Ew & f & F)|(K & Ew & F)]].
      - destruct (wf_explicit_out op w) as [R _]; auto. exists (Some w).
        assert (forall z, step_in op z = Ok (Some w)) as HZ by (intros [v|]; cbn [step_in]; unfold reshapein; rewrite ?R; congruence).
        rewrite HZ in S1. injection S1 as <-. split; auto. split; [right; auto|]. right. symmetry. apply HO. exact Ew.
      - destruct y as [v|].
        + destruct x as [v'|].
          * destruct B1 as [|[= <-]]; [discriminate|]. exists t. split; auto. split; auto. right; auto.
          * destruct B2 as [|B2]; [discriminate|]. cbn [step_in] in S1. rewrite Ew in S1. injection S1 as <-.
            destruct s as [u|]; [|discriminate]. cbn in B2. injection B2 as <-.
            destruct (kind_in_cases op) as [(K' & z & Ez)|[(K' & Ez & g & G)|(K' & Ez & G)]].
            -- destruct (wf_mixed1 op); auto.
            -- destruct r0 as [z|]; cbn [step_out] in Es; [|congruence]. exists (Some z). cbn [step_in]. split; [apply (wf_converse op); auto|].
               split; [left; auto|right; auto].
            -- destruct r0 as [z|]; cbn [step_out] in Es; [|congruence]. unfold reshapeout in Es. rewrite G in Es. congruence.
        + destruct B1 as [B1|B1]; subst x; cbn [step_in] in *; exists t; split; auto; split; auto; right; auto.
      - assert (forall z, step_in op z = Ok None) as HZ by (intros [v|]; cbn [step_in]; unfold reshapein; rewrite ?F; congruence).
        exists None. rewrite HZ in *. injection S1 as <-. split; auto. split; left; auto. }
    destruct HS as (u & -> & Bu & Bu'). cbn [rbind]. exists (u :: y :: q0). split; auto.
Qed.
Lemma outward_between : forall ops cur r q r', stepped ops (cur :: r) \/ True -> outward ops cur r = Ok r' -> Forall2 below r q -> Forall2 below q r' -> outward ops cur q = Ok r'.
Proof.
  induction ops as [|op ops IH]; intros cur r q r' _ E F1 F2.
  - destruct r; cbn in E; injection E as <-; inversion F2; subst; auto.
  - destruct r as [|x r]; [cbn in E; injection E as <-; inversion F2; subst; auto|]. cbn [outward] in E.
    destruct (step_out op cur) as [s|] eqn:Es; [|discriminate]. cbn [rbind] in E. destruct (conflict x s) eqn:Ec; [discriminate|].
    destruct (outward ops (first_known s x) r) as [q'|] eqn:Eq; [|discriminate]. injection E as <-.
    inversion F1 as [|? y ? q0 B1 F1']; subst. inversion F2 as [|? ? ? ? B2 F2']; subst.
    cbn [outward]. rewrite Es. cbn [rbind].
    assert (conflict y s = false /\ first_known s y = first_known s x) as [-> ->].
    { destruct s as [u|]; cbn in *.
      - destruct B2 as [-> | ->]; cbn; auto. rewrite eqb_refl. auto.
      - destruct y; cbn; split; auto; destruct B2 as [|B2]; try discriminate; auto. destruct B1; congruence. }
    rewrite (IH _ _ _ _ (or_intror I) Eq F1' F2'). reflexivity.
Qed.
Theorem get_shapes_again ops si so l : Forall exact ops -> ops <> [] -> (exists op ops', ops = op :: ops' /\ so = o_out op) -> get_shapes si so ops = Ok l ->
  get_shapes (last l None) (hd None l) ops = Ok l.
Proof.
  intros W N (op & ops' & -> & ->) H. apply get_shapes_inv in H as (t & r & r' & E1 & S & Ec & E2 & -> & HL).
  set (r0 := first_known t (o_out op)) in *.
  assert (B : below t r0) by (unfold r0; destruct t; [right|left]; auto).
  destruct (inward_again (op :: ops') r0 (r0 :: r') t r r') as (q & Eq & F1 & F2); auto.
  { cbn [hd]. intros w Hw. unfold r0. rewrite Hw in *. destruct t as [v|]; cbn; auto. apply conflict_eq in Ec. congruence. }
  unfold get_shapes. rewrite Eq. cbn [rbind hd]. inversion F1 as [|? y ? q0 B1 F1']; subst. inversion F2 as [|? ? ? ? B2 F2']; subst.
  assert (conflict r0 y = false /\ first_known y r0 = r0) as [-> ->].
  { destruct B2 as [-> | ->]; cbn; [destruct r0; auto|]. destruct r0; cbn; auto. rewrite eqb_refl. auto. }
  rewrite (outward_between (op :: ops') r0 r q0 r'); auto.
Qed.

Theorem derived_run ops c s t : Forall exact ops -> compose ops = Ok c -> o_in c = Some s -> o_out c = Some t ->
  (exists ss, run_shapes ops s t = Ok ss) \/ (run_shapes ops s t = Raise ValueError /\ exists l, get_shapes (Some s) (Some t) ops = Ok l /\ In None l).
Proof.
  intros W H Hs Ht. apply compose_inv in H as (op & l & (ops' & ->) & El & Nl & Hi & Ho & _); auto.
  assert (E := El). apply get_shapes_again in E; eauto; [|discriminate]. rewrite <- Hi, <- Ho, Hs, Ht in E. unfold run_shapes. rewrite E. cbn [rbind].
  destruct (all_known l) as [ss|] eqn:K; [eauto|]. right. split; auto. exists l. split; auto.
  clear - K. induction l as [|[x|] l IH]; cbn in *; [discriminate| |auto]. right. apply IH. destruct (all_known l); [discriminate|auto].
Qed.
