From Verif Require Import Base ShapeModel ShapeSpec ShapeProofs.

(** ** Validation of the shapes of the arguments *)
Lemma validate_ok v s : validate v s = Ok tt <-> forall x, s = Some x -> v x = true.
Proof.
  unfold validate. destruct s as [x|]; [|split; auto; discriminate]. destruct (v x) eqn:E; split; intros H; auto; try discriminate.
  - intros y [= <-]. auto.
  - specialize (H x eq_refl). congruence.
Qed.
Lemma validate_cases v s : validate v s = Ok tt \/ exists e, validate v s = Raise e.
Proof. unfold validate. destruct s as [x|]; auto. destruct (v x); eauto. Qed.

Theorem validate_shapes_iff op s t : well_formed op ->
  (admits op s t <-> validate_shapes op (Some s) (Some t) = Ok (Some s, Some t)).
Proof.
  intros W. unfold validate_shapes. split.
  - intros (V1 & V2 & L1 & L2). cbn [validate]. rewrite V1, V2. cbn [rbind].
    destruct (kind_out op) eqn:Ko, (kind_in op) eqn:Ki; rewrite ?L1, ?L2; cbn [rbind validate]; rewrite ?L1, ?L2; cbn [rbind validate]; rewrite ?V1, ?V2; cbn [rbind conflict];
      rewrite ?eqb_refl; reflexivity.
  - intros H. cbn [validate] in H. destruct (o_vin op s) eqn:V1; [|discriminate]. cbn [rbind] in H.
    destruct (match kind_out op with Explicit => Ok (o_out op) | Implicit => t <- reshapein op s;; (_ <- validate (o_vout op) t;; Ok t) | Unconstrained => Ok None end)
      as [so|] eqn:E1; [|discriminate]. cbn [rbind] in H. destruct (o_vout op t) eqn:V2; [|discriminate]. cbn [rbind] in H.
    destruct (match kind_in op with Explicit => Ok (o_in op) | Implicit => s <- reshapeout op t;; (_ <- validate (o_vin op) s;; Ok s) | Unconstrained => Ok None end)
      as [si|] eqn:E2; [|discriminate]. cbn [rbind] in H.
    destruct (conflict (Some s) si) eqn:C1; [discriminate|]. destruct (conflict (Some t) so) eqn:C2; [discriminate|].
    do 2 (split; auto). split.
    + destruct (kind_in_cases op) as [(K & u & Eu)|[(K & Eu & f & F)|(K & Eu & F)]]; rewrite K in *; auto.
      * injection E2 as <-. rewrite Eu in C1. apply conflict_eq in C1. congruence.
      * destruct (reshapeout op t) as [r|] eqn:Er; [|discriminate]. assert (Er' := Er). eapply reshapeout_some in Er' as (v & _ & ->); eauto.
        cbn [rbind] in E2. destruct (validate_cases (o_vin op) (Some v)) as [Ev|[e Ev]]; rewrite Ev in E2; [|discriminate]. injection E2 as <-.
        apply conflict_eq in C1. congruence.
    + destruct (kind_out_cases op) as [(K & u & Eu)|[(K & Eu & f & F)|(K & Eu & F)]]; rewrite K in *; auto.
      * injection E1 as <-. rewrite Eu in C2. apply conflict_eq in C2. congruence.
      * destruct (reshapein op s) as [r|] eqn:Er; [|discriminate]. assert (Er' := Er). eapply reshapein_some in Er' as (v & _ & ->); eauto.
        cbn [rbind] in E1. destruct (validate_cases (o_vout op) (Some v)) as [Ev|[e Ev]]; rewrite Ev in E1; [|discriminate]. injection E1 as <-.
        apply conflict_eq in C2. congruence.
Qed.
Lemma validate_shapes_given op s t r : validate_shapes op (Some s) (Some t) = Ok r -> r = (Some s, Some t).
Proof.
  unfold validate_shapes. intros H.
  repeat match type of H with rbind ?x _ = _ => destruct x; [cbn [rbind] in H|discriminate] end.
  destruct (conflict _ _); [discriminate|]. destruct (conflict _ _); [discriminate|]. cbn in H. congruence.
Qed.
Theorem call_given op s t r : well_formed op -> call_shape op s (Some t) = Ok r <-> admits op s t /\ r = t.
Proof.
  intros W. unfold call_shape. split.
  - destruct (validate_shapes op (Some s) (Some t)) as [r'|] eqn:E; [|discriminate]. cbn [rbind]. intros [= <-]. split; auto.
    apply validate_shapes_iff; auto. rewrite E. f_equal. eapply validate_shapes_given; eauto.
  - intros [H ->]. apply validate_shapes_iff in H; auto. rewrite H. reflexivity.
Qed.

Theorem call_alone op s t : well_formed op -> kind_out op <> Unconstrained -> call_shape op s None = Ok t <-> admits op s t.
Proof.
  intros W N. unfold call_shape, validate_shapes. cbn [validate]. split.
  - destruct (o_vin op s) eqn:V1; [|discriminate]. cbn [rbind]. intros H.
    destruct (kind_out_cases op) as [(K & u & Eu)|[(K & Eu & f & F)|(K & Eu & F)]]; [| |congruence]; rewrite K in H; cbn [rbind] in H.
    + assert (Ki : kind_in op <> Implicit) by (intros K'; destruct (wf_mixed2 op); auto).
      assert (H' : (if conflict (Some s) (match kind_in op with Explicit => o_in op | _ => None end) then Raise ValueError
                    else match (if conflict None (o_out op) then Raise ValueError else Ok (first_known None (o_out op))) with Ok (Some t) => Ok t | Ok None => Ok s | Raise e => Raise e end) = Ok t).
      { rewrite <- H. destruct (kind_in op); cbn [rbind]; try congruence; destruct (conflict (Some s) _); reflexivity. }
      clear H. destruct (conflict _ _) eqn:C in H'; [discriminate|]. rewrite Eu in H'. cbn in H'. injection H' as <-.
      destruct (wf_explicit_out _ _ W Eu) as [_ V]. split; auto. split; [apply V; auto|]. split; [|rewrite K; auto].
      destruct (kind_in_cases op) as [(K' & v & Ev)|[(K' & _)|(K' & _)]]; rewrite K'; auto; [|congruence].
      rewrite K', Ev in C. apply conflict_eq in C. congruence.
    + destruct (reshapein op s) as [r|] eqn:Er; [|discriminate]. assert (Er' := Er). eapply reshapein_some in Er' as (v & _ & ->); eauto.
      cbn [rbind validate] in H. destruct (o_vout op v) eqn:V2; [|discriminate]. cbn [rbind] in H.
      assert (Ki : kind_in op <> Explicit) by (intros K'; destruct (wf_mixed1 op); auto).
      assert (t = v) as -> by (destruct (kind_in op); cbn in H; congruence).
      do 2 (split; auto). split; [|rewrite K; auto].
      destruct (kind_in op) eqn:K'; auto; [congruence|]. apply (wf_valid op); auto.
  - intros (V1 & V2 & L1 & L2). rewrite V1. cbn [rbind]. destruct (kind_out op) eqn:K; [| |congruence].
    + rewrite L2. cbn [rbind]. destruct (kind_in op) eqn:K'; cbn [rbind].
      * rewrite L1. cbn [conflict]. rewrite eqb_refl. reflexivity.
      * destruct (wf_mixed2 op); auto.
      * reflexivity.
    + rewrite L2. cbn [rbind validate]. rewrite V2. cbn [rbind]. destruct (kind_in op) eqn:K'; cbn [rbind]; auto.
      destruct (wf_mixed1 op); auto.
Qed.

(** ** The constructor *)
Lemma init_gen r op (P : shape -> shape -> Prop) : (forall s t, r_square r = false -> valid (r_vin r) None s = true -> valid (r_vout r) None t = true -> P s t) ->
  (forall f g, r_rin r = Some f -> r_rout r = Some g -> forall s t, P s t -> f s = Ok t <-> g t = Ok s) ->
  init r = Ok op -> well_formed op /\ ((forall s t, P s t) -> exact op).
Proof.
  intros HP HC H.
  assert (HX : well_formed op /\ (kind_in op = Implicit -> kind_out op = Implicit -> forall s t, (r_square r = true \/ P s t) -> reshapein op s = Ok (Some t) <-> reshapeout op t = Ok (Some s))).
  2: { destruct HX as [W X]. split; auto. intros A. split; auto. }
  unfold init in H.
  match type of H with rbind ?x _ = _ => destruct x as [so|] eqn:Eso; [cbn [rbind] in H|discriminate] end.
  match type of H with rbind ?x _ = _ => destruct x as [si|] eqn:Esi; [cbn [rbind] in H|discriminate] end.
  match type of H with rbind ?x _ = _ => destruct x eqn:E1; [cbn [rbind] in H|discriminate] end.
  match type of H with rbind ?x _ = _ => destruct x eqn:E2; [cbn [rbind] in H|discriminate] end.
  injection H as <-.
  assert (Def : forall k s, default_valid (Some k) s = true <-> Some k = Some s).
  { intros k s. cbn. rewrite eqb_eq. split; congruence. }
  unfold well_formed, kind_in, kind_out, reshapein, reshapeout. cbn [o_in o_out o_rin o_rout o_vin o_vout o_square].
  destruct si as [s|], so as [t|].
  - (* both known *)
    destruct (shape_eqb s t) eqn:Eq; cbn [kind_of]; (split; [|discriminate]).
    + apply eqb_eq in Eq. subst t. split; [exact I|]. split; [intros _; split; auto|]. split; [intros _; split; auto|].
      intros _. split; auto. split; auto. discriminate.
    + split; [exact I|]. split; [intros _; split; auto|]. split; [intros _; split; auto|]. discriminate.
  - (* input only *)
    assert (R : r_rin r = None).
    { destruct (r_in r) as [s'|] eqn:Er.
      - destruct (r_rin r) as [f|]; auto. destruct (f s') as [t|]; [|discriminate]. cbn in Eso. destruct (r_out r) eqn:Eo; cbn in Eso; [|discriminate].
        destruct (valid _ _ t); cbn in Eso; discriminate.
      - congruence. }
    destruct (r_square r); cbn [kind_of]; (split; [|discriminate]).
    + split; [exact I|]. split; [intros _; split; auto|]. split; [intros _; split; auto|]. intros _. split; auto. split; auto. discriminate.
    + rewrite R. cbn [kind_of]. split; [exact I|]. split; [intros _; split; auto|]. split; [congruence|]. discriminate.
  - (* output only *)
    assert (R : r_rout r = None).
    { destruct (r_rout r) as [g|]; auto. destruct (g t) as [s|]; [|discriminate]. cbn in Esi. destruct (r_in r) eqn:Eo; cbn in Esi; [|discriminate].
      destruct (valid _ _ s); cbn in Esi; discriminate. }
    destruct (r_square r); cbn [kind_of].
    + split; [|discriminate]. split; [exact I|]. split; [intros _; split; auto|]. split; [intros _; split; auto|]. intros _. split; auto. split; auto. discriminate.
    + rewrite R. cbn [kind_of]. split; [|discriminate]. split; [exact I|]. split; [congruence|]. split; [intros _; split; auto|]. discriminate.
  - (* none *)
    destruct (r_square r) eqn:Sq; cbn [kind_of].
    + split; [split; [|split; [congruence|split; [congruence|]]]|].
      * intros s t _ _. cbn. split; congruence.
      * intros _. split; [auto|]. split; auto.
      * intros _ _ s t _. cbn. split; congruence.
    + assert (HX : forall f g, r_rin r = Some f -> r_rout r = Some g -> forall s t, P s t -> rsome (f s) = Ok (Some t) <-> rsome (g t) = Ok (Some s)).
      { intros f g F G s t Hst. specialize (HC f g F G s t Hst). unfold rsome. destruct (f s) as [t'|], (g t) as [s'|]; cbn; split; intros E; try discriminate; injection E as ->; f_equal; f_equal; destruct HC as [H1 H2];
        (specialize (H1 eq_refl) || specialize (H2 eq_refl)); congruence. }
      split.
      * split; [|split; [congruence|split; [congruence|discriminate]]].
        destruct (r_rout r) as [g|] eqn:G, (r_rin r) as [f|] eqn:F; auto.
      * destruct (r_rout r) as [g|] eqn:G, (r_rin r) as [f|] eqn:F; cbn [kind_of]; try discriminate. intros _ _ s t [|Hst]; [discriminate|]. auto.
Qed.

Lemma init_wf r op : (forall f g, r_rin r = Some f -> r_rout r = Some g -> forall s t, valid (r_vin r) None s = true -> valid (r_vout r) None t = true -> f s = Ok t <-> g t = Ok s) ->
  init r = Ok op -> well_formed op.
Proof.
  intros HC H. refine (proj1 (init_gen r op (fun s t => valid (r_vin r) None s = true /\ valid (r_vout r) None t = true) _ _ H)); [auto|].
  intros f g F G s t [V1 V2]. apply HC; auto.
Qed.
Lemma init_exact r op : (forall f g, r_rin r = Some f -> r_rout r = Some g -> forall s t, f s = Ok t <-> g t = Ok s) ->
  init r = Ok op -> exact op.
Proof. intros HC H. refine (proj2 (init_gen r op (fun _ _ => True) _ _ H) _); auto. Qed.
Lemma init_admits r s t : agrees (r_in r) s -> agrees (r_out r) t ->
  (forall f, r_rin r = Some f -> f s = Ok t) -> (forall g, r_rout r = Some g -> g t = Ok s) ->
  (forall v, r_vin r = Some v -> v s = true) -> (forall v, r_vout r = Some v -> v t = true) -> (r_square r = true -> s = t) ->
  exists op, init r = Ok op /\ admits op s t.
Proof.
  intros A1 A2 F G V1 V2 Sq. unfold init.
  assert (W1 : forall k, agrees k s -> valid (r_vin r) k s = true).
  { intros k A. unfold valid. destruct (r_vin r); auto. destruct A as [->| ->]; cbn; auto. apply eqb_refl. }
  assert (W2 : forall k, agrees k t -> valid (r_vout r) k t = true).
  { intros k A. unfold valid. destruct (r_vout r); auto. destruct A as [->| ->]; cbn; auto. apply eqb_refl. }
  assert (X1 : forall k k', agrees k s -> agrees k' s -> validate (valid (r_vin r) k) k' = Ok tt).
  { intros k k' A [->| ->]; cbn; auto. rewrite W1; auto. }
  assert (X2 : forall k k', agrees k t -> agrees k' t -> validate (valid (r_vout r) k) k' = Ok tt).
  { intros k k' A [->| ->]; cbn; auto. rewrite W2; auto. }
  assert (exists so, match r_in r with
        | None => Ok (r_out r)
        | Some s =>
            t <- match r_rin r with Some f => rsome (f s) | None => Ok (r_out r) end ;;
            match r_out r with
            | None => Ok t
            | Some _ => _ <- validate (valid (r_vout r) (r_out r)) t ;; Ok (r_out r)
            end
        end = Ok so /\ agrees so t /\ (r_rin r = None -> so = r_out r)) as (so & -> & Ao & No).
  { destruct A1 as [->| ->]; [eauto|].
    assert (exists w, match r_rin r with Some f => rsome (f s) | None => Ok (r_out r) end = Ok w /\ agrees w t /\ (r_rin r = None -> w = r_out r)) as (w & -> & Aw & Nw).
    { destruct (r_rin r) as [f|]; [|eauto]. rewrite (F f); auto. cbn. exists (Some t). split; auto. split; [right; auto|discriminate]. }
    cbn [rbind]. destruct (r_out r) eqn:E; [|eauto]. rewrite X2; auto. cbn [rbind]. eauto. }
  cbn [rbind].
  assert (exists si, match so with
        | None => Ok (r_in r)
        | Some t =>
            s <- match r_rout r with Some f => rsome (f t) | None => Ok (r_in r) end ;;
            match r_in r with
            | None => Ok s
            | Some _ => _ <- validate (valid (r_vin r) (r_in r)) s ;; Ok (r_in r)
            end
        end = Ok si /\ agrees si s) as (si & -> & Ai).
  { destruct Ao as [->| ->]; [eauto|].
    assert (exists w, match r_rout r with Some f => rsome (f t) | None => Ok (r_in r) end = Ok w /\ agrees w s) as (w & -> & Aw).
    { destruct (r_rout r) as [f|]; [|eauto]. rewrite (G f); auto. cbn. exists (Some s). split; auto. right; auto. }
    cbn [rbind]. destruct (r_in r) eqn:E; [|eauto]. rewrite X1; auto. cbn [rbind]. eauto. }
  cbn [rbind]. rewrite X1, X2 by auto. cbn [rbind]. eexists. split; [reflexivity|].
  set (square := match si, so with Some s, Some t => shape_eqb s t | _, _ => r_square r end).
  assert (Hsq : square = true -> s = t).
  { unfold square. destruct Ai as [->| ->], Ao as [->| ->]; auto. apply eqb_eq. }
  unfold admits, linked, kind_in, kind_out, reshapein, reshapeout. cbn [o_in o_out o_rin o_rout o_vin o_vout].
  assert (D : forall k x, agrees k x -> default_valid k x = true) by (intros k x [->| ->]; cbn; auto; apply eqb_refl).
  destruct square.
  - specialize (Hsq eq_refl). subst t. destruct Ai as [->| ->], Ao as [->| ->]; cbn [kind_of]; repeat split; auto using W1, D; try (apply D; right; auto); try (apply W1; left; auto).
  - destruct Ai as [->| ->], Ao as [->| ->]; cbn [kind_of];
      (split; [try (apply W1; left; reflexivity); apply D; right; reflexivity|]);
      (split; [try (apply W2; left; reflexivity); apply D; right; reflexivity|]); split; auto;
      try (destruct (r_rout r) as [g|]; cbn [kind_of]; auto; rewrite (G g) by auto; reflexivity);
      try (destruct (r_rin r) as [f|]; cbn [kind_of]; auto; rewrite (F f) by auto; reflexivity).
Qed.

(** ** Products *)
Lemma implicit_out op : is_implicit (kind_out op) = true -> kind_out op = Implicit /\ exists f, o_rin op = Some f.
Proof. destruct (kind_out_cases op) as [(K & _)|[(K & _ & f & F)|(K & _)]]; rewrite K; try discriminate. eauto. Qed.
Lemma implicit_in op : is_implicit (kind_in op) = true -> kind_in op = Implicit /\ exists f, o_rout op = Some f.
Proof. destruct (kind_in_cases op) as [(K & _)|[(K & _ & f & F)|(K & _)]]; rewrite K; try discriminate. eauto. Qed.

Lemma rin_of op f s t : o_rin op = Some f -> reshapein op s = Ok (Some t) <-> f s = Ok t.
Proof. unfold reshapein, rsome. intros ->. destruct (f s); cbn; split; congruence. Qed.
Lemma rout_of op f s t : o_rout op = Some f -> reshapeout op s = Ok (Some t) <-> f s = Ok t.
Proof. unfold reshapeout, rsome. intros ->. destruct (f s); cbn; split; congruence. Qed.

Definition fold_in (ops : list oper) (s : shape) := fold_right (fun o acc => s <- acc ;; apply_reshape (o_rin o) s) (Ok s) ops.
Definition fold_out (ops : list oper) (s : shape) := fold_left (fun acc o => s <- acc ;; apply_reshape (o_rout o) s) ops (Ok s).
Lemma fold_out_raise ops e : fold_left (fun acc o => s <- acc ;; apply_reshape (o_rout o) s) ops (Raise e) = Raise e.
Proof. induction ops; cbn; auto. Qed.
Lemma fold_out_cons op ops s : fold_out (op :: ops) s = (u <- apply_reshape (o_rout op) s ;; fold_out ops u).
Proof. unfold fold_out. cbn. destruct (apply_reshape (o_rout op) s); cbn; auto. apply fold_out_raise. Qed.

Lemma fold_converse : forall ops, Forall exact ops ->
  forallb (fun o => is_implicit (kind_in o)) ops = true -> forallb (fun o => is_implicit (kind_out o)) ops = true ->
  forall s t, fold_in ops s = Ok t <-> fold_out ops t = Ok s.
Proof.
  induction ops as [|op ops IH]; intros W H1 H2 s t.
  - cbn. split; congruence.
  - cbn in H1, H2. apply andb_true_iff in H1 as [H1 H1'], H2 as [H2 H2']. inversion W; subst.
    destruct (implicit_in op H1) as (K1 & g & G), (implicit_out op H2) as (K2 & f & F).
    rewrite fold_out_cons. change (fold_in (op :: ops) s) with (u <- fold_in ops s ;; apply_reshape (o_rin op) u).
    rewrite F, G. cbn [apply_reshape]. specialize (IH H4 H1' H2').
    assert (Cv := fun a b => wf_converse op a b H3 K1 K2).
    split; intros E.
    + destruct (fold_in ops s) as [u|] eqn:Eu; [|discriminate]. cbn [rbind] in E. apply IH in Eu.
      assert (Eg : g t = Ok u) by (apply (rout_of op); auto; apply Cv; apply (rin_of op f); auto). rewrite Eg. cbn [rbind]. auto.
    + destruct (g t) as [u|] eqn:Eu; [|discriminate]. cbn [rbind] in E. apply IH in E. rewrite E. cbn [rbind].
      apply (rin_of op); auto. apply Cv. apply (rout_of op g); auto.
Qed.

Lemma linked_square op s t : well_formed op -> o_square op = true -> linked op s t -> s = t.
Proof.
  intros W Q [L1 L2]. destruct W as (_ & _ & _ & W). destruct (W Q) as (E & _ & I).
  destruct (o_in op) as [u|] eqn:Eu.
  - unfold kind_in in L1. rewrite Eu in L1. cbn in L1. unfold kind_out in L2. rewrite <- E in L2. cbn in L2. congruence.
  - destruct (I eq_refl) as (K1 & K2 & R). rewrite K2, (proj1 (R s)) in L2. congruence.
Qed.
Lemma chain_square : forall ops ss, Forall well_formed ops -> forallb o_square ops = true -> chain linked ops ss -> last ss [] = hd [] ss.
Proof.
  induction ops as [|op ops IH]; intros ss W H C.
  - apply chain_nil in C as (s & ->). reflexivity.
  - apply chain_cons in C as (t & s & rest & -> & L & C). cbn in H. apply andb_true_iff in H as [H H']. inversion W; subst.
    rewrite last_cons. rewrite (IH (s :: rest)); auto. cbn. eapply linked_square; eauto.
Qed.
Lemma last_in {X} (l : list X) d : l <> [] -> In (last l d) l.
Proof. induction l as [|a l IH]; [congruence|]. intros _. destruct l; [left; auto|]. right. apply IH. discriminate. Qed.
Lemma last_indep {X} (l : list X) d d' : l <> [] -> last l d = last l d'.
Proof. induction l as [|a l IH]; [congruence|]. intros _. destruct l; auto. apply IH. discriminate. Qed.

Lemma square_implicit op f : well_formed op -> o_square op = true -> o_rin op = Some f -> forall s, f s = Ok s.
Proof.
  intros W Q F s. assert (W' := W). destruct W as (_ & _ & W1 & W). destruct (W Q) as (E & _ & I).
  destruct (o_in op) as [u|] eqn:Eu; [destruct W1; congruence|]. destruct (I eq_refl) as (K1 & K2 & R). apply (rin_of op); auto. apply R.
Qed.
Lemma square_implicit_out op g : well_formed op -> o_square op = true -> o_rout op = Some g -> forall s t, g s = Ok t <-> s = t.
Proof.
  intros W Q G s t. assert (W' := W). destruct W as (_ & W1 & _ & W). destruct (W Q) as (E & _ & I).
  destruct (o_in op) as [u|] eqn:Eu; [destruct W1; congruence|]. destruct (I eq_refl) as (K1 & K2 & R).
  rewrite <- (rout_of op) by eauto. rewrite (proj2 (R s)). split; congruence.
Qed.

Lemma merge_in_spec ops f : Forall well_formed ops -> merge_reshapein ops = Some f ->
  forallb (fun o => is_implicit (kind_out o)) ops = true /\ forall s, f s = fold_in ops s.
Proof.
  unfold merge_reshapein. intros W H. destruct (forallb _ ops) eqn:E; [|discriminate]. cbn [negb] in H. split; auto. intros s.
  destruct (forallb o_square ops) eqn:Q.
  - destruct ops as [|op ops]; [discriminate|]. rewrite (last_indep _ _ op) in H by discriminate.
    assert (HL := last_in (op :: ops) op). set (o := last (op :: ops) op) in *.
    assert (Wo : well_formed o) by (eapply Forall_forall; eauto; apply HL; discriminate).
    assert (Qo : o_square o = true) by (eapply forallb_forall in Q; eauto; apply HL; discriminate).
    rewrite (square_implicit o f) by auto. clear - W Q E. symmetry. revert W Q E. generalize (op :: ops). clear.
    induction l as [|o l IH]; intros W Q E; [reflexivity|]. cbn in Q, E. apply andb_true_iff in Q as [Q Q'], E as [E E']. inversion W; subst.
    change (fold_in (o :: l) s) with (u <- fold_in l s ;; apply_reshape (o_rin o) u). rewrite IH by auto. cbn [rbind].
    destruct (implicit_out o E) as (K & g & G). rewrite G. cbn. eapply square_implicit; eauto.
  - injection H as <-. reflexivity.
Qed.
Lemma merge_out_spec ops f : Forall well_formed ops -> merge_reshapeout ops = Some f ->
  forallb (fun o => is_implicit (kind_in o)) ops = true /\ forall s t, f s = Ok t <-> fold_out ops s = Ok t.
Proof.
  unfold merge_reshapeout. intros W H. destruct (forallb _ ops) eqn:E; [|discriminate]. cbn [negb] in H. split; auto. intros s t.
  destruct (forallb o_square ops) eqn:Q.
  - destruct ops as [|op ops]; [discriminate|]. cbn in Q. apply andb_true_iff in Q as [Q Q']. inversion W; subst.
    rewrite (square_implicit_out op f) by auto.
    assert (X : forall l, Forall well_formed l -> forallb o_square l = true -> forallb (fun o => is_implicit (kind_in o)) l = true ->
      fold_out l s = Ok t <-> s = t).
    { clear. induction l as [|o l IH]; intros W Q E; [cbn; split; congruence|]. cbn in Q, E. apply andb_true_iff in Q as [Q Q'], E as [E E'].
      inversion W; subst. rewrite fold_out_cons. destruct (implicit_in o E) as (K & g & G). rewrite G. cbn [apply_reshape].
      assert (g s = Ok s) as -> by (apply (square_implicit_out o g); auto). cbn [rbind]. auto. }
    symmetry. apply X; auto. cbn. rewrite Q, Q'. auto.
  - injection H as <-. reflexivity.
Qed.

Lemma chain_fold_in : forall ops ss, Forall well_formed ops -> chain linked ops ss ->
  forallb (fun o => is_implicit (kind_out o)) ops = true -> fold_in ops (last ss []) = Ok (hd [] ss).
Proof.
  induction ops as [|op ops IH]; intros ss W C H.
  - apply chain_nil in C as (s & ->). reflexivity.
  - apply chain_cons in C as (t & s & rest & -> & L & C). cbn in H. apply andb_true_iff in H as [H H']. inversion W; subst.
    change (fold_in (op :: ops) (last (t :: s :: rest) [])) with (u <- fold_in ops (last (s :: rest) []) ;; apply_reshape (o_rin op) u).
    rewrite (IH (s :: rest)) by auto. cbn [rbind hd]. destruct (implicit_out op H) as (K & f & F). rewrite F. cbn.
    apply (rin_of op); auto. destruct L as [_ L]. rewrite K in L. auto.
Qed.
Lemma chain_fold_out : forall ops ss, Forall well_formed ops -> chain linked ops ss ->
  forallb (fun o => is_implicit (kind_in o)) ops = true -> fold_out ops (hd [] ss) = Ok (last ss []).
Proof.
  induction ops as [|op ops IH]; intros ss W C H.
  - apply chain_nil in C as (s & ->). reflexivity.
  - apply chain_cons in C as (t & s & rest & -> & L & C). cbn in H. apply andb_true_iff in H as [H H']. inversion W; subst.
    rewrite fold_out_cons. destruct (implicit_in op H) as (K & f & F). rewrite F. cbn [apply_reshape hd].
    assert (f t = Ok s) as ->. { apply (rout_of op); auto. destruct L as [L _]. rewrite K in L. auto. }
    cbn [rbind]. rewrite last_cons. apply (IH (s :: rest)); auto.
Qed.

Lemma merged_converse ops : Forall exact ops -> forall f g, merge_reshapein ops = Some f -> merge_reshapeout ops = Some g ->
  forall s t, f s = Ok t <-> g t = Ok s.
Proof.
  intros W f g F G s t. apply merge_in_spec in F as [H1 F]; auto. apply merge_out_spec in G as [H2 G]; auto.
  rewrite F, G. apply fold_converse; auto.
Qed.

Theorem compose_exact ops c : Forall exact ops -> compose ops = Ok c -> exact c.
Proof.
  intros W H. unfold compose in H. destruct ops as [|op ops]; [discriminate|].
  match type of H with rbind ?x _ = _ => destruct x as [l|]; [cbn [rbind] in H|discriminate] end.
  eapply init_exact; eauto. cbn [r_rin r_rout]. apply merged_converse; auto.
Qed.

Lemma linked_in op s t : well_formed op -> linked op s t -> agrees (o_in op) s.
Proof.
  intros W [L _]. unfold kind_in in L. destruct (o_in op); [right|left]; auto.
Qed.
Lemma linked_out op s t : well_formed op -> linked op s t -> agrees (o_out op) t.
Proof. intros W [_ L]. unfold kind_out in L. destruct (o_out op); [right|left]; auto. Qed.
Lemma chain_last rel : forall ops ss op d, ops <> [] -> chain rel ops ss -> exists t, rel (last ops op) (last ss d) t.
Proof.
  induction ops as [|o ops IH]; intros ss op d N C; [congruence|]. apply chain_cons in C as (t & s & rest & -> & L & C).
  rewrite last_cons. destruct ops as [|o' ops].
  - apply chain_nil in C as (s' & [= -> ->]). cbn. eauto.
  - rewrite last_cons. apply IH; auto. discriminate.
Qed.
Lemma Forall2_last {X Y} (R : X -> Y -> Prop) l l' d d' : Forall2 R l l' -> l <> [] -> R (last l d) (last l' d').
Proof.
  induction 1 as [|a b l l' H F IH]; [congruence|]. intros _. destruct F as [|a' b' l l' H' F]; auto. rewrite !last_cons. apply IH. discriminate.
Qed.

Theorem compose_admits ops ss : ops <> [] -> Forall well_formed ops -> chain admits ops ss ->
  exists c, compose ops = Ok c /\ admits c (last ss []) (hd [] ss).
Proof.
  intros N W C. assert (CL : chain linked ops ss) by (revert C; apply chain_impl; intros o s t H; apply H).
  destruct ops as [|op ops]; [congruence|]. assert (C' := C). apply chain_cons in C' as (t0 & s0 & rest & -> & (V1 & V2 & L) & _).
  destruct (chain_last admits (op :: ops) (t0 :: s0 :: rest) op [] N C) as (t1 & V1' & V2' & L').
  assert (W0 : well_formed op) by (inversion W; auto).
  assert (WL : well_formed (last (op :: ops) op)) by (eapply Forall_forall; eauto; apply last_in; auto).
  destruct (get_shapes_agrees (op :: ops) (t0 :: s0 :: rest) (o_in (last (op :: ops) op)) (o_out op)) as (l & E & F); auto.
  { eapply linked_in; eauto. } { eapply linked_out; eauto. }
  assert (Nl : l <> []) by (intros ->; inversion F).
  destruct (init_admits (R (last l None) (hd None l) (merge_reshapein (op :: ops)) (merge_reshapeout (op :: ops))
              (Some (o_vin (last (op :: ops) op))) (Some (o_vout op)) (forallb o_square (op :: ops))) (last (t0 :: s0 :: rest) []) t0)
    as (c & Ec & Ac); cbn [r_in r_out r_rin r_rout r_vin r_vout r_square].
  - apply Forall2_last; auto.
  - inversion F; subst. assumption.
  - intros f Hf. apply merge_in_spec in Hf as [H1 Hf]; auto. rewrite Hf, chain_fold_in; auto.
  - intros f Hf. apply merge_out_spec in Hf as [H1 Hf]; auto. apply Hf. apply (chain_fold_out (op :: ops) (t0 :: s0 :: rest)); auto.
  - intros v [= <-]. auto.
  - intros v [= <-]. auto.
  - intros Q. apply (chain_square (op :: ops)) in CL; auto.
  - assert (EC : compose (op :: ops) = Ok c) by (unfold compose; rewrite E; cbn [rbind]; exact Ec).
    exists c. split; [exact EC|exact Ac].
Qed.
