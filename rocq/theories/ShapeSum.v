From Verif Require Import Base ShapeModel ShapeSpec ShapeProofs ShapeCompose ShapeRun.

Lemma merge_shape_agrees l s : Forall (fun o => agrees o s) l -> exists o, merge_shape l = Ok o /\ agrees o s.
Proof.
  intros H. unfold merge_shape.
  assert (F : Forall (eq s) (flat_map (fun s : option shape => match s with Some s => [s] | None => [] end) l)).
  { induction H as [|o l [->| ->] H IH]; cbn; auto. }
  destruct (flat_map _ l) as [|u l']; [exists None; split; [auto|left; auto]|]. apply Forall_inv in F as E; apply Forall_inv_tail in F as F'; subst u.
  assert (existsb (fun t => negb (shape_eqb t s)) l' = false) as ->.
  { clear - F'. induction F' as [|v l Ev F' IH]; cbn; auto. rewrite <- Ev, eqb_refl. auto. }
  exists (Some s). split; [auto|right; auto].
Qed.
Lemma first_implicit_spec (kd : oper -> kind) (f : oper -> option (shape -> result shape)) ops g : first_implicit kd f ops = Some g ->
  exists o, In o ops /\ kd o = Implicit /\ f o = Some g.
Proof.
  unfold first_implicit. destruct (existsb _ ops); [discriminate|]. destruct (filter _ ops) as [|o l] eqn:E; [discriminate|]. intros H.
  assert (I : In o (filter (fun o => is_implicit (kd o)) ops)) by (rewrite E; left; auto). apply filter_In in I as [I K]. exists o. split; auto. split; auto.
  destruct (kd o); try discriminate. auto.
Qed.
Lemma sum_admits ops s t : ops <> [] -> Forall well_formed ops -> Forall (fun op => admits op s t) ops ->
  exists c, add_shapes ops = Ok c /\ admits c s t.
Proof.
  intros N W A. destruct ops as [|op ops']; [congruence|]. set (ops := op :: ops') in *. rewrite Forall_forall in W, A. unfold add_shapes. fold ops. cbv iota. unfold ops at 1. cbv iota.
  destruct (merge_shape_agrees (map o_in ops) s) as (si & -> & Ai).
  { apply Forall_forall. intros o Ho. apply in_map_iff in Ho as (x & <- & Hx). eapply linked_in; eauto. apply A; auto. }
  destruct (merge_shape_agrees (map o_out ops) t) as (so & -> & Ao).
  { apply Forall_forall. intros o Ho. apply in_map_iff in Ho as (x & <- & Hx). eapply linked_out; eauto. apply A; auto. }
  cbn [rbind]. apply init_admits; cbn [r_in r_out r_rin r_rout r_vin r_vout r_square]; auto.
  - intros f F. apply first_implicit_spec in F as (o & Io & K & F). destruct (A o Io) as (_ & _ & _ & L). rewrite K in L. apply (rin_of o); auto.
  - intros f F. apply first_implicit_spec in F as (o & Io & K & F). destruct (A o Io) as (_ & _ & L & _). rewrite K in L. apply (rout_of o); auto.
  - intros v [= <-]. apply A. left; auto.
  - intros v [= <-]. apply A. left; auto.
  - intros Q. apply existsb_exists in Q as (o & Io & Q). eapply linked_square; eauto. apply A; auto.
Qed.

Lemma merge_shape_some l o s : merge_shape l = Ok o -> In (Some s) l -> o = Some s.
Proof.
  unfold merge_shape. intros H I.
  assert (I' : In s (flat_map (fun s : option shape => match s with Some s => [s] | None => [] end) l)) by (apply in_flat_map; exists (Some s); split; [auto|left; auto]).
  destruct (flat_map _ l) as [|u l']; [destruct I'|]. destruct (existsb _ l') eqn:E; [discriminate|]. injection H as <-.
  destruct I' as [->|I']; auto. f_equal. destruct (shape_eqb s u) eqn:Eq; [symmetry; apply eqb_eq; auto|].
  assert (existsb (fun t => negb (shape_eqb t u)) l' = true) by (apply existsb_exists; exists s; rewrite Eq; auto). congruence.
Qed.
Lemma init_known r c : init r = Ok c -> (forall s, r_in r = Some s -> o_in c = Some s) /\ (forall t, r_out r = Some t -> o_out c = Some t).
Proof.
  intros H. unfold init in H.
  match type of H with rbind ?x _ = _ => destruct x as [so|] eqn:Eso; [cbn [rbind] in H|discriminate] end.
  match type of H with rbind ?x _ = _ => destruct x as [si|] eqn:Esi; [cbn [rbind] in H|discriminate] end.
  match type of H with rbind ?x _ = _ => destruct x eqn:E1; [cbn [rbind] in H|discriminate] end.
  match type of H with rbind ?x _ = _ => destruct x eqn:E2; [cbn [rbind] in H|discriminate] end.
  injection H as <-. cbn [o_in o_out].
  assert (Ho : forall t, r_out r = Some t -> so = Some t).
  { intros t Et. rewrite Et in Eso. destruct (r_in r); [|congruence].
    match type of Eso with rbind ?x _ = _ => destruct x; [cbn [rbind] in Eso|discriminate] end.
    match type of Eso with rbind ?x _ = _ => destruct x; [cbn [rbind] in Eso|discriminate] end. congruence. }
  assert (Hi : forall s, r_in r = Some s -> si = Some s).
  { intros s Es. rewrite Es in Esi. destruct so; [|congruence].
    match type of Esi with rbind ?x _ = _ => destruct x; [cbn [rbind] in Esi|discriminate] end.
    match type of Esi with rbind ?x _ = _ => destruct x; [cbn [rbind] in Esi|discriminate] end. congruence. }
  split.
  - intros s Es. rewrite (Hi s Es). destruct (match so with Some t => shape_eqb s t | None => r_square r end); reflexivity.
  - intros t Et. rewrite (Ho t Et). destruct si as [s|].
    + destruct (shape_eqb s t) eqn:E; auto. apply eqb_eq in E. congruence.
    + destruct (r_square r); reflexivity.
Qed.
Lemma call_known c s out t : call_shape c s out = Ok t -> (forall s', o_in c = Some s' -> s' = s) /\ (forall t', o_out c = Some t' -> t' = t).
Proof.
  unfold call_shape, validate_shapes. intros H. cbn [validate] in H. destruct (o_vin c s); [|discriminate]. cbn [rbind] in H.
  match type of H with rbind (rbind ?x _) _ = _ => destruct x as [so|] eqn:Eso; [cbn [rbind] in H|discriminate] end.
  match type of H with rbind (rbind ?x _) _ = _ => destruct x as [u|] eqn:Eu; [cbn [rbind] in H|discriminate] end.
  match type of H with rbind (rbind ?x _) _ = _ => destruct x as [si|] eqn:Esi; [cbn [rbind] in H|discriminate] end.
  destruct (conflict (Some s) si) eqn:C1; [discriminate|]. destruct (conflict out so) eqn:C2; [discriminate|]. cbn [rbind snd] in H.
  split.
  - intros s' E. unfold kind_in in Esi. rewrite E in Esi. cbn in Esi. injection Esi as <-. apply conflict_eq in C1. auto.
  - intros t' E. unfold kind_out in Eso, H. rewrite E in Eso, H. cbn in Eso. injection Eso as <-. destruct out as [v|].
    + apply conflict_eq in C2. congruence.
    + destruct (kind_in c); cbn in H; congruence.
Qed.
Lemma sum_rejects ops c s out t : add_shapes ops = Ok c -> call_shape c s out = Ok t -> forall op, In op ops ->
  (forall s', o_in op = Some s' -> s' = s) /\ (forall t', o_out op = Some t' -> t' = t).
Proof.
  intros H HC op I. unfold add_shapes in H. destruct ops as [|o ops]; [destruct I|].
  destruct (merge_shape (map o_in (o :: ops))) as [si|] eqn:Ei; [|discriminate]. cbn [rbind] in H.
  destruct (merge_shape (map o_out (o :: ops))) as [so|] eqn:Eo; [|discriminate]. cbn [rbind] in H.
  apply init_known in H as [H1 H2]. cbn [r_in r_out] in H1, H2. apply call_known in HC as [C1 C2].
  split; intros x Ex.
  - apply C1, H1. eapply merge_shape_some; eauto. rewrite <- Ex. apply in_map. auto.
  - apply C2, H2. eapply merge_shape_some; eauto. rewrite <- Ex. apply in_map. auto.
Qed.
