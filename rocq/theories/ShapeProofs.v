From Verif Require Import Base ShapeModel ShapeSpec.

Lemma eqb_eq a b : shape_eqb a b = true <-> a = b.
Proof. unfold shape_eqb. destruct (list_eq_dec Nat.eq_dec a b); split; congruence. Qed.
Lemma eqb_refl a : shape_eqb a a = true.
Proof. apply eqb_eq. reflexivity. Qed.
Lemma conflict_agrees a b s : agrees a s -> agrees b s -> conflict a b = false.
Proof. intros [->| ->] [->| ->]; cbn; auto. rewrite eqb_refl. reflexivity. Qed.
Lemma conflict_eq s t : conflict (Some s) (Some t) = false -> s = t.
Proof. cbn. intros H. apply negb_false_iff, eqb_eq in H. auto. Qed.
Lemma first_agrees a b s : agrees a s -> agrees b s -> agrees (first_known a b) s.
Proof. intros [->| ->] H; cbn; auto. right; auto. Qed.
Lemma agrees_some s t : agrees (Some s) t -> s = t.
Proof. intros [H|H]; congruence. Qed.

(** ** One operator *)
Lemma kind_in_cases op : (kind_in op = Explicit /\ exists s, o_in op = Some s)
  \/ (kind_in op = Implicit /\ o_in op = None /\ exists f, o_rout op = Some f)
  \/ (kind_in op = Unconstrained /\ o_in op = None /\ o_rout op = None).
Proof. unfold kind_in, kind_of. destruct (o_in op), (o_rout op); eauto 6. Qed.
Lemma kind_out_cases op : (kind_out op = Explicit /\ exists s, o_out op = Some s)
  \/ (kind_out op = Implicit /\ o_out op = None /\ exists f, o_rin op = Some f)
  \/ (kind_out op = Unconstrained /\ o_out op = None /\ o_rin op = None).
Proof. unfold kind_out, kind_of. destruct (o_out op), (o_rin op); eauto 6. Qed.

Lemma wf_explicit_in op s : well_formed op -> o_in op = Some s -> o_rout op = None /\ forall t, o_vin op t = true <-> t = s.
Proof.
  intros (_ & H & _) E. destruct H as [H1 H2]; [congruence|]. split; auto. intros t. rewrite H2, E. split; congruence.
Qed.
Lemma wf_explicit_out op s : well_formed op -> o_out op = Some s -> o_rin op = None /\ forall t, o_vout op t = true <-> t = s.
Proof.
  intros (_ & _ & H & _) E. destruct H as [H1 H2]; [congruence|]. split; auto. intros t. rewrite H2, E. split; congruence.
Qed.
Lemma wf_valid op s t : well_formed op -> kind_in op = Implicit -> kind_out op = Implicit -> o_vin op s = true -> o_vout op t = true ->
  reshapein op s = Ok (Some t) <-> reshapeout op t = Ok (Some s).
Proof. intros [H _] E1 E2. rewrite E1, E2 in H. apply H. Qed.
Lemma wf_converse op s t : exact op -> kind_in op = Implicit -> kind_out op = Implicit ->
  reshapein op s = Ok (Some t) <-> reshapeout op t = Ok (Some s).
Proof. intros [_ H]. auto. Qed.
Lemma exact_wf op : exact op -> well_formed op.
Proof. intros [H _]. exact H. Qed.
Lemma exacts_wf ops : Forall exact ops -> Forall well_formed ops.
Proof. apply Forall_impl, exact_wf. Qed.
Global Hint Resolve exact_wf exacts_wf : core.
Lemma wf_mixed1 op : well_formed op -> kind_in op = Explicit -> kind_out op <> Implicit.
Proof. intros [H _] E1 E2. rewrite E1, E2 in H. auto. Qed.
Lemma wf_mixed2 op : well_formed op -> kind_in op = Implicit -> kind_out op <> Explicit.
Proof. intros [H _] E1 E2. rewrite E1, E2 in H. auto. Qed.

Lemma reshapein_some op s f : o_rin op = Some f -> forall r, reshapein op s = Ok r -> exists t, f s = Ok t /\ r = Some t.
Proof. unfold reshapein. intros -> r. destruct (f s); cbn; intros [= <-]; eauto. Qed.
Lemma reshapeout_some op s f : o_rout op = Some f -> forall r, reshapeout op s = Ok r -> exists t, f s = Ok t /\ r = Some t.
Proof. unfold reshapeout. intros -> r. destruct (f s); cbn; intros [= <-]; eauto. Qed.

(** what the steps give *)
Lemma step_in_agrees op s t cur : well_formed op -> linked op s t -> agrees cur s -> exists r, step_in op cur = Ok r /\ agrees r t.
Proof.
  intros W [_ L] H. destruct (kind_out_cases op) as [(K & t' & E)|[(K & E & f & F)|(K & E & F)]]; rewrite K in L.
  - destruct (wf_explicit_out _ _ W E) as [R _]. exists (Some t'). split; [|right; congruence].
    destruct H as [-> | ->]; cbn [step_in]; [congruence|]. unfold reshapein. rewrite R. congruence.
  - destruct H as [-> | ->]; cbn [step_in].
    + exists None. rewrite E. split; auto. left; auto.
    + exists (Some t). split; auto. right; auto.
  - exists None. split; [|left; auto]. destruct H as [-> | ->]; cbn [step_in]; [congruence|]. unfold reshapein. rewrite F. congruence.
Qed.
Lemma step_out_agrees op s t cur : well_formed op -> linked op s t -> agrees cur t -> exists r, step_out op cur = Ok r /\ agrees r s.
Proof.
  intros W [L _] H. destruct (kind_in_cases op) as [(K & t' & E)|[(K & E & f & F)|(K & E & F)]]; rewrite K in L.
  - destruct (wf_explicit_in _ _ W E) as [R _]. exists (Some t'). split; [|right; congruence].
    destruct H as [-> | ->]; cbn [step_out]; [congruence|]. unfold reshapeout. rewrite R. congruence.
  - destruct H as [-> | ->]; cbn [step_out].
    + exists None. rewrite E. split; auto. left; auto.
    + exists (Some s). split; auto. right; auto.
  - exists None. split; [|left; auto]. destruct H as [-> | ->]; cbn [step_out]; [congruence|]. unfold reshapeout. rewrite F. congruence.
Qed.

Lemma chain_cons rel op ops ss : chain rel (op :: ops) ss -> exists t s rest, ss = t :: s :: rest /\ rel op s t /\ chain rel ops (s :: rest).
Proof. destruct ss as [|t [|s rest]]; cbn; try tauto. intros [H1 H2]. eauto 8. Qed.
Lemma chain_nil rel ss : chain rel [] ss -> exists s, ss = [s].
Proof. destruct ss as [|t [|]]; cbn; try tauto. eauto. Qed.
Lemma chain_impl (r1 r2 : oper -> shape -> shape -> Prop) : (forall o s t, r1 o s t -> r2 o s t) -> forall ops ss, chain r1 ops ss -> chain r2 ops ss.
Proof.
  intros H. induction ops; intros ss C.
  - apply chain_nil in C as (s & ->). exact I.
  - apply chain_cons in C as (t & s & rest & -> & R & C). cbn. split; [auto|apply (IHops _ C)].
Qed.
Lemma chain_length rel : forall ops ss, chain rel ops ss -> length ss = S (length ops).
Proof.
  induction ops; intros ss C; [apply chain_nil in C as (s & ->); auto|].
  apply chain_cons in C as (t & s & rest & -> & R & C). apply IHops in C. cbn in *. lia.
Qed.

(** ** _get_shapes accepts compatible operands *)
Lemma inward_agrees : forall ops ss si, Forall well_formed ops -> chain linked ops ss -> agrees si (last ss []) ->
  exists l, inward ops si = Ok l /\ Forall2 agrees l ss.
Proof.
  induction ops as [|op ops IH]; intros ss si W C H.
  - apply chain_nil in C as (s & ->). exists [si]. split; auto.
  - apply chain_cons in C as (t & s & rest & -> & L & C). inversion W; subst.
    destruct (IH (s :: rest) si) as (l & E & F); auto. inversion F as [|x ? xs ? A1 A2]; subst.
    destruct (step_in_agrees op s t x) as (r & Er & Ar); auto.
    exists (r :: x :: xs). cbn [inward]. rewrite E. cbn [rbind hd]. rewrite Er. cbn [rbind]. split; auto.
Qed.
Lemma outward_agrees : forall ops t ss cur rest, Forall well_formed ops -> chain linked ops (t :: ss) -> agrees cur t -> Forall2 agrees rest ss ->
  exists l, outward ops cur rest = Ok l /\ Forall2 agrees l ss.
Proof.
  induction ops as [|op ops IH]; intros t ss cur rest W C H F.
  - apply chain_nil in C as (s & [= -> ->]). exists []. split; auto.
  - apply chain_cons in C as (t' & s & rest' & [= -> ->] & L & C). inversion W; subst. inversion F as [|x ? xs ? A1 A2]; subst.
    destruct (step_out_agrees op s t' cur) as (r & Er & Ar); auto.
    cbn [outward]. rewrite Er. cbn [rbind]. rewrite (conflict_agrees _ _ s A1 Ar).
    destruct (IH s rest' (first_known r x) xs) as (l & E & F'); auto using first_agrees.
    rewrite E. cbn [rbind]. eexists. split; [reflexivity|]. constructor; auto using first_agrees.
Qed.
Theorem get_shapes_agrees ops ss si so : Forall well_formed ops -> chain linked ops ss -> agrees si (last ss []) -> agrees so (hd [] ss) ->
  exists l, get_shapes si so ops = Ok l /\ Forall2 agrees l ss.
Proof.
  intros W C H1 H2. destruct (inward_agrees ops ss si W C H1) as (l & E & F). unfold get_shapes. rewrite E. cbn [rbind].
  destruct F as [|x t xs ss A1 A2]; [eauto|]. cbn [hd] in H2. rewrite (conflict_agrees _ _ t); auto.
  destruct (outward_agrees ops t ss (first_known x so) xs) as (l' & E' & F'); auto using first_agrees.
  rewrite E'. cbn [rbind]. eexists. split; [reflexivity|]. constructor; auto using first_agrees.
Qed.

(** ** _get_shapes rejects incompatible operands *)

(** what is known is linked *)
Definition olinked (op : oper) (s t : option shape) : Prop := forall s' t', s = Some s' -> t = Some t' -> linked op s' t'.
Fixpoint ochain (ops : list oper) (l : list (option shape)) : Prop :=
  match ops, l with
  | [], [_] => True
  | op :: ops', t :: ((s :: _) as rest) => olinked op s t /\ ochain ops' rest
  | _, _ => False
  end.
(** the result of the first loop *)
Fixpoint stepped (ops : list oper) (l : list (option shape)) : Prop :=
  match ops, l with
  | [], [_] => True
  | op :: ops', t :: ((s :: _) as rest) => step_in op s = Ok t /\ stepped ops' rest
  | _, _ => False
  end.
Lemma inward_stepped : forall ops si l, inward ops si = Ok l -> stepped ops l /\ last l None = si.
Proof.
  induction ops as [|op ops IH]; intros si l H; cbn [inward] in H.
  - injection H as <-. cbn. auto.
  - destruct (inward ops si) as [r|] eqn:E; [|discriminate]. cbn [rbind] in H. destruct (step_in op (hd None r)) as [s|] eqn:E2; [|discriminate].
    injection H as <-. destruct (IH si r E) as [H1 H2]. destruct r as [|x r]; [destruct ops; destruct H1|].
    cbn. auto.
Qed.

Lemma last_cons {X} (a b : X) l d : last (a :: b :: l) d = last (b :: l) d.
Proof. reflexivity. Qed.

Lemma known_linked op cur next s : exact op -> step_out op cur = Ok s -> conflict next s = false ->
  (forall v, next = Some v -> kind_out op = Implicit -> exists w, cur = Some w /\ reshapein op v = Ok (Some w)) ->
  (forall w, o_out op = Some w -> cur = Some w) ->
  olinked op (first_known s next) cur.
Proof.
  intros W E HC HI HE s' t' E1 E2. subst cur. cbn [step_out] in E. split.
  - destruct (kind_in_cases op) as [(K & u & Eu)|[(K & Eu & f & F)|(K & Eu & F)]]; rewrite K; auto.
    + destruct (wf_explicit_in _ _ (exact_wf _ W) Eu) as [R _]. unfold reshapeout in E. rewrite R in E. injection E as <-. rewrite Eu in E1.
      cbn in E1. congruence.
    + assert (E' := E). eapply reshapeout_some in E' as (u & _ & ->); eauto. cbn in E1. congruence.
  - destruct (kind_out_cases op) as [(K & u & Eu)|[(K & Eu & f & F)|(K & Eu & F)]]; rewrite K; auto.
    + apply HE in Eu as Eu'. congruence.
    + destruct (kind_in_cases op) as [(K' & u & Eu')|[(K' & Eu' & g & G)|(K' & Eu' & G)]].
      * destruct (wf_mixed1 op); auto.
      * assert (E' := E). eapply reshapeout_some in E' as (u & _ & ->); eauto. cbn in E1. injection E1 as <-.
        apply (wf_converse op); auto.
      * unfold reshapeout in E. rewrite G in E. injection E as <-. rewrite Eu' in E1. cbn in E1.
        destruct (HI s' E1 K) as (w & [= <-] & Hw). auto.
Qed.

Lemma outward_linked : forall ops cur t rest l, Forall exact ops -> stepped ops (t :: rest) ->
  (t = None \/ cur = t) -> outward ops cur rest = Ok l -> ochain ops (cur :: l).
Proof.
  induction ops as [|op ops IH]; intros cur t rest l W S H E.
  - destruct rest; [|destruct S]. injection E as <-. exact I.
  - destruct rest as [|x rest]; [destruct S|]. destruct S as [S1 S2]. inversion W; subst. cbn [outward] in E.
    destruct (step_out op cur) as [s|] eqn:Es; [|discriminate]. cbn [rbind] in E. destruct (conflict x s) eqn:Ec; [discriminate|].
    destruct (outward ops (first_known s x) rest) as [r|] eqn:Er; [|discriminate]. injection E as <-.
    cbn [ochain]. split.
    + apply known_linked; auto.
      * intros v -> K. cbn [step_in] in S1. destruct (kind_out_cases op) as [(K' & _)|[(_ & Eu & f & F)|(K' & _)]]; try congruence.
        assert (S1' := S1). eapply reshapein_some in S1' as (w & _ & ->); eauto. destruct H as [|H]; [discriminate|]. eauto.
      * intros w Ew. assert (t = Some w).
        { destruct x as [v|]; cbn [step_in] in S1; [|congruence]. unfold reshapein in S1. destruct (wf_explicit_out op w) as [R _]; auto.
          rewrite R in S1. congruence. }
        destruct H as [|H]; congruence.
    + apply IH with x rest; auto. destruct x as [v|]; auto. right. destruct s as [u|]; cbn; auto. apply conflict_eq in Ec. congruence.
Qed.
Lemma get_shapes_ochain ops si so l : Forall exact ops -> get_shapes si so ops = Ok l -> ochain ops l.
Proof.
  intros W H. unfold get_shapes in H. destruct (inward ops si) as [r|] eqn:E; [|discriminate]. cbn [rbind] in H.
  destruct (inward_stepped _ _ _ E) as [S _]. destruct r as [|t r]; [destruct ops; destruct S|].
  destruct (conflict so t) eqn:Ec; [discriminate|]. destruct (outward ops (first_known t so) r) as [r'|] eqn:E'; [|discriminate].
  injection H as <-. apply outward_linked with t r; auto. destruct t; auto.
Qed.
Lemma ochain_known : forall ops l ss, ochain ops l -> all_known l = Some ss -> chain linked ops ss.
Proof.
  induction ops as [|op ops IH]; intros l ss O K.
  - destruct l as [|x [|]]; try destruct O. cbn in K. destruct x; [|discriminate]. injection K as <-. exact I.
  - destruct l as [|t [|s l]]; try destruct O as [O1 O2]; try contradiction. cbn in K. destruct t as [t|]; [|discriminate].
    destruct s as [s|]; [|discriminate]. destruct (all_known l) as [ss'|] eqn:E; [|discriminate]. injection K as <-.
    split; [apply O1; auto|]. apply (IH (Some s :: l)); auto. cbn. rewrite E. auto.
Qed.

(** ends *)
Lemma outward_length : forall ops cur t rest l, stepped ops (t :: rest) -> outward ops cur rest = Ok l -> length l = length rest.
Proof.
  induction ops as [|op ops IH]; intros cur t rest l S E.
  - destruct rest; [|destruct S]. injection E as <-. auto.
  - destruct rest as [|x rest]; [destruct S|]. destruct S as [S1 S2]. cbn [outward] in E.
    destruct (step_out op cur) as [s|] eqn:Es; [|discriminate]. cbn [rbind] in E. destruct (conflict x s) eqn:Ec; [discriminate|].
    destruct (outward ops (first_known s x) rest) as [r|] eqn:Er; [|discriminate]. injection E as <-. cbn. f_equal. eapply IH; eauto.
Qed.
Lemma outward_last : forall ops cur t rest l v d, stepped ops (t :: rest) -> rest <> [] -> outward ops cur rest = Ok l -> last rest None = Some v -> last l d = Some v.
Proof.
  induction ops as [|op ops IH]; intros cur t rest l v d S N E Hv.
  - destruct rest; [congruence|destruct S].
  - destruct rest as [|x rest]; [congruence|]. destruct S as [S1 S2]. cbn [outward] in E.
    destruct (step_out op cur) as [s|] eqn:Es; [|discriminate]. cbn [rbind] in E. destruct (conflict x s) eqn:Ec; [discriminate|].
    destruct (outward ops (first_known s x) rest) as [r|] eqn:Er; [|discriminate]. injection E as <-.
    assert (L := outward_length _ _ _ _ _ S2 Er).
    destruct rest as [|y rest].
    + destruct r; [|discriminate]. cbn in Hv. subst x. cbn [last]. destruct s as [u|]; cbn; auto. apply conflict_eq in Ec. congruence.
    + destruct r as [|z r]; [discriminate|]. rewrite last_cons in *. eapply IH; eauto. discriminate.
Qed.
Lemma stepped_length : forall ops l, stepped ops l -> length l = S (length ops).
Proof.
  induction ops as [|op ops IH]; intros l S.
  - destruct l as [|x [|]]; try destruct S. auto.
  - destruct l as [|t [|s l]]; try destruct S; try contradiction. cbn. f_equal. apply IH in H0. auto.
Qed.
Lemma get_shapes_ends ops s t l : ops <> [] -> get_shapes (Some s) (Some t) ops = Ok l -> hd None l = Some t /\ last l None = Some s.
Proof.
  intros N H. unfold get_shapes in H. destruct (inward ops (Some s)) as [r|] eqn:E; [|discriminate]. cbn [rbind] in H.
  destruct (inward_stepped _ _ _ E) as [S Hl]. destruct r as [|t' r]; [destruct ops; destruct S|].
  destruct (conflict (Some t) t') eqn:Ec; [discriminate|]. destruct (outward ops (first_known t' (Some t)) r) as [r'|] eqn:E'; [|discriminate].
  injection H as <-. split.
  - cbn. destruct t' as [u|]; auto. apply conflict_eq in Ec. cbn. congruence.
  - assert (L := outward_length _ _ _ _ _ S E'). destruct r as [|x r].
    + apply stepped_length in S. destruct ops; [congruence|discriminate].
    + destruct r' as [|y r']; [discriminate|]. rewrite last_cons in *. eapply outward_last; eauto. discriminate.
Qed.

Lemma all_known_map : forall l ss, all_known l = Some ss -> l = map Some ss.
Proof.
  induction l as [|x l IH]; cbn; intros ss H; [injection H as <-; auto|]. destruct x; [|discriminate].
  destruct (all_known l); [|discriminate]. injection H as <-. cbn. f_equal. auto.
Qed.
Theorem run_linked ops s t ss : ops <> [] -> Forall exact ops -> run_shapes ops s t = Ok ss ->
  chain linked ops ss /\ hd [] ss = t /\ last ss [] = s.
Proof.
  intros N W H. unfold run_shapes in H. destruct (get_shapes (Some s) (Some t) ops) as [l|] eqn:E; [|discriminate]. cbn [rbind] in H.
  destruct (all_known l) as [ss'|] eqn:K; [|discriminate]. injection H as <-.
  split; [eapply ochain_known; eauto using get_shapes_ochain|]. apply get_shapes_ends in E as [E1 E2]; auto. apply all_known_map in K. subst l.
  assert (ss' <> []) by (intros ->; discriminate). destruct ss' as [|a ss']; [congruence|]. split; [cbn in *; congruence|].
  clear - E2. revert a E2. induction ss' as [|b ss' IH]; intros a E2; [cbn in *; congruence|].
  cbn [map] in E2. rewrite last_cons in E2. rewrite last_cons. apply IH. auto.
Qed.
