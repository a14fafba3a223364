(** Proofs for C42: sums and multiples of criteria. *)
From Verif Require Import Base Algebra Ofield CritModel CritSpec CritProofs.

Section Sums.
Context {K : ofield}.
Add Ring KringCs : (rth K).
Local Open Scope cr_scope.
Notation array := (list K).
Implicit Types (es : list (element K)) (a b c : component) (x : array).

Definition values es (l : list component) (x : array) (acc : K) : result K :=
  (fix go l acc := match l with [] => Ok acc | c :: l => v <- value es c x ;; go l (acc + v) end) l acc.
Lemma value_Cr es l x : value es (Cr l) x = values es l x 0. Proof. reflexivity. Qed.
Lemma values_cons es c l x acc : values es (c :: l) x acc = (v <- value es c x ;; values es l x (acc + v)). Proof. reflexivity. Qed.
Lemma values_acc es l x : forall acc, values es l x acc = (v <- values es l x 0 ;; Ok (acc + v)).
Proof.
  induction l as [|c l IH]; intros acc; [cbn; f_equal; ring|]. rewrite !values_cons. destruct (value es c x) as [v|]; cbn [rbind]; [|reflexivity]. rewrite (IH (acc + v)), (IH (0 + v)). destruct (values es l x 0) as [w|]; cbn [rbind]; [|reflexivity]. f_equal. ring.
Qed.
Lemma values_app es l m x acc : values es (l ++ m) x acc = (v <- values es l x acc ;; values es m x v).
Proof. revert acc. induction l as [|c l IH]; intros acc; [reflexivity|]. cbn [app]. rewrite !values_cons. destruct (value es c x); cbn [rbind]; auto. Qed.

Definition gradients es (l : list component) (x : array) (acc : option array) : result array :=
  (fix go l (acc : option array) := match l with [] => match acc with Some v => Ok v | None => Raise IndexError end
         | c :: l => v <- gradient es c x ;; v <- match acc with None => Ok v | Some w => plus w v end ;; go l (Some v) end) l acc.
Lemma gradient_Cr es l x : gradient es (Cr l) x = gradients es l x None. Proof. reflexivity. Qed.
Lemma gradients_cons es c l x acc : gradients es (c :: l) x acc = (v <- gradient es c x ;; v <- match acc with None => Ok v | Some w => plus w v end ;; gradients es l x (Some v)). Proof. reflexivity. Qed.
Lemma gradients_app es l m x acc : l <> [] \/ acc <> None -> gradients es (l ++ m) x acc = (v <- gradients es l x acc ;; gradients es m x (Some v)).
Proof.
  revert acc. induction l as [|c l IH]; intros acc H.
  - destruct acc; [reflexivity|]. destruct H; congruence.
  - cbn [app]. rewrite !gradients_cons. destruct (gradient es c x) as [v|]; cbn [rbind]; [|reflexivity]. destruct (match acc with Some w => plus w v | None => Ok v end) as [w|]; cbn [rbind]; [|reflexivity]. apply IH. right. discriminate.
Qed.

Lemma map2_assoc (u v w : array) : map2 radd u (map2 radd v w) = map2 radd (map2 radd u v) w.
Proof. revert v w. induction u as [|p u IH]; intros [|q v] [|r w]; cbn; auto. rewrite IH. f_equal. ring. Qed.
Lemma map2_length (f : K -> K -> K) (u v : array) : length u = length v -> length (map2 f u v) = length u.
Proof. revert v. induction u as [|p u IH]; intros [|q v] E; try discriminate; cbn in *; auto. Qed.
Lemma plus_ok (u v : array) : length u = length v -> plus u v = Ok (map2 radd u v).
Proof. intros E. unfold plus. rewrite E, Nat.eqb_refl. reflexivity. Qed.
Lemma plus_inv (u v w : array) : plus u v = Ok w -> length u = length v /\ w = map2 radd u v /\ length w = length u.
Proof. unfold plus. destruct (Nat.eqb (length u) (length v)) eqn:E; [|discriminate]. apply Nat.eqb_eq in E. intros Q. injection Q as <-. repeat split; auto using map2_length. Qed.
Lemma gradients_acc es m x u v : length u = length v -> gradients es m x None = Ok v -> gradients es m x (Some u) = Ok (map2 radd u v).
Proof.
  destruct m as [|c m]; [discriminate|]. rewrite !gradients_cons. destruct (gradient es c x) as [g|]; cbn [rbind]; [|discriminate]. intros L E.
  enough (forall m g u, length u = length v -> gradients es m x (Some g) = Ok v -> (w <- plus u g ;; gradients es m x (Some w)) = Ok (map2 radd u v)) as Q by (apply Q; assumption).
  clear. induction m as [|c m IH]; intros g u L E.
  - cbn in E. injection E as ->. rewrite (plus_ok u v L). reflexivity.
  - rewrite gradients_cons in E. destruct (gradient es c x) as [h|] eqn:Eh; cbn [rbind] in E; [|discriminate]. destruct (plus g h) as [gh|] eqn:Eg; cbn [rbind] in E; [|discriminate].
    destruct (plus_inv g h gh Eg) as (L1 & -> & L2). specialize (IH _ u L E).
    assert (length u = length g) as Lu. { destruct (plus u (map2 radd g h)) as [w|] eqn:Ew; cbn [rbind] in IH; [|discriminate]. destruct (plus_inv _ _ _ Ew) as (L3 & _). rewrite L3, L2. reflexivity. }
    rewrite (plus_ok u g Lu). cbn [rbind]. rewrite gradients_cons, Eh. cbn [rbind]. rewrite (plus_ok (map2 radd u g) h) by (rewrite map2_length by exact Lu; lia). cbn [rbind].
    rewrite (plus_ok u (map2 radd g h)) in IH by (rewrite L2; exact Lu). cbn [rbind] in IH. rewrite <- map2_assoc. exact IH.
Qed.

Definition valid es c : Prop := every (fun _ => True) es c.
Definition everyl (P : element K -> Prop) es (l : list component) : Prop := (fix go l := match l with [] => True | c :: l => every P es c /\ go l end) l.
Lemma every_Cr P es l : every P es (Cr l) <-> l <> [] /\ everyl P es l. Proof. reflexivity. Qed.
Lemma everyl_cons P es c l : everyl P es (c :: l) <-> every P es c /\ everyl P es l. Proof. reflexivity. Qed.
Lemma everyl_app P es l m : everyl P es (l ++ m) <-> everyl P es l /\ everyl P es m.
Proof. induction l as [|c l IH]; [cbn; tauto|]. cbn [app]. rewrite !everyl_cons, IH. tauto. Qed.
Lemma every_impl (P Q : element K -> Prop) es c : (forall e, P e -> Q e) -> every P es c -> every Q es c.
Proof.
  intros PQ. induction c as [id|l IH] using component_rect'.
  - cbn. destruct (nth_error es id); auto.
  - rewrite !every_Cr. intros [N E]. split; [exact N|]. clear N. induction IH as [|c l Hc Hl IHl]; [exact I|]. rewrite everyl_cons in *. destruct E. split; auto.
Qed.
Lemma value_ext es m c x : valid es c -> value (es ++ m) c x = value es c x.
Proof.
  unfold valid. induction c as [id|l IH] using component_rect'.
  - cbn. destruct (nth_error es id) eqn:E; [|tauto]. rewrite nth_error_app1 by (apply nth_error_Some; congruence). rewrite E. reflexivity.
  - rewrite every_Cr, !value_Cr. intros [_ V]. generalize (0 : K). induction IH as [|c l Hc Hl IHl]; intros acc; [reflexivity|]. rewrite everyl_cons in V. destruct V as [V1 V2]. rewrite !values_cons, (Hc V1). destruct (value es c x); cbn [rbind]; auto.
Qed.
Lemma gradient_ext es m c x : valid es c -> gradient (es ++ m) c x = gradient es c x.
Proof.
  unfold valid. induction c as [id|l IH] using component_rect'.
  - cbn. destruct (nth_error es id) eqn:E; [|tauto]. rewrite nth_error_app1 by (apply nth_error_Some; congruence). rewrite E. reflexivity.
  - rewrite every_Cr, !gradient_Cr. intros [_ V]. generalize (@None array). induction IH as [|c l Hc Hl IHl]; intros acc; [reflexivity|]. rewrite everyl_cons in V. destruct V as [V1 V2]. rewrite !gradients_cons, (Hc V1). destruct (gradient es c x) as [v|]; cbn [rbind]; [|reflexivity].
    destruct (match acc with Some w => plus w v | None => Ok v end); cbn [rbind]; auto.
Qed.
Lemma every_ext P es m c : every P es c -> every P (es ++ m) c.
Proof.
  induction c as [id|l IH] using component_rect'.
  - cbn. destruct (nth_error es id) eqn:E; [|tauto]. rewrite nth_error_app1 by (apply nth_error_Some; congruence). rewrite E. auto.
  - rewrite !every_Cr. intros [N V]. split; [exact N|]. clear N. induction IH as [|c l Hc Hl IHl]; [exact I|]. rewrite everyl_cons in *. destruct V. auto.
Qed.

(** multiples *)
Definition scales (k : K) es (l : list component) : list (element K) * list component :=
  (fix go es l := match l with [] => (es, []) | a :: l => let '(es, a) := scale k es a in let '(es, l) := go es l in (es, a :: l) end) es l.
Lemma scale_Cr k es l : scale k es (Cr l) = let '(es, l) := scales k es l in (es, Cr l). Proof. reflexivity. Qed.
Lemma scales_cons k es a l : scales k es (a :: l) = let '(es, a) := scale k es a in let '(es, l) := scales k es l in (es, a :: l). Proof. reflexivity. Qed.
Lemma scale_ok k a : forall es, valid es a -> let '(es', b) := scale k es a in (exists m, es' = es ++ m) /\ valid es' b /\ (forall x, value es' b x = scaled k (value es a x)) /\
  forall x, every (fun e => forall y, o_T (e_op e) (map (fun t => k * t) y) = scaled_array k (o_T (e_op e) y)) es a -> gradient es' b x = scaled_array k (gradient es a x).
Proof.
  unfold valid. induction a as [id|l IH] using component_rect'; intros es V.
  - cbn [scale]. cbn in V. destruct (nth_error es id) as [e|] eqn:E; [|tauto]. split; [eauto|]. cbn [every value gradient]. rewrite nth_error_app2, Nat.sub_diag by lia. cbn [nth_error]. rewrite E. split; [exact I|]. split.
    + intros x. unfold element_value, misfit, scaled. cbn [e_norm e_op e_data norm_mul n_call]. destruct (y <- o_call (e_op e) x ;; _); reflexivity.
    + intros x H. unfold element_gradient, misfit. cbn [e_norm e_op e_data norm_mul n_diff]. destruct (y <- o_call (e_op e) x ;; _) as [y|]; cbn [rbind]; [apply H|reflexivity].
  - rewrite scale_Cr. assert (forall es, everyl (fun _ => True) es l -> let '(es', l') := scales k es l in (exists m, es' = es ++ m) /\ everyl (fun _ => True) es' l' /\ (l <> [] -> l' <> []) /\ (forall x acc, values es' l' x (k * acc) = scaled k (values es l x acc)) /\
        forall x acc, everyl (fun e => forall y, o_T (e_op e) (map (fun t => k * t) y) = scaled_array k (o_T (e_op e) y)) es l -> gradients es' l' x (option_map (map (fun t => k * t)) acc) = scaled_array k (gradients es l x acc)) as H.
    { clear es V. induction IH as [|c l Hc Hl IHl]; intros es V.
      - cbn. split; [exists []; rewrite app_nil_r; reflexivity|]. split; [exact I|]. split; [congruence|]. split; [reflexivity|]. intros x [acc|] _; reflexivity.
      - rewrite everyl_cons in V. destruct V as [V1 V2]. rewrite scales_cons. specialize (Hc es V1). destruct (scale k es c) as [es1 c1]. destruct Hc as ([m1 ->] & W1 & E1 & G1).
        assert (V2' : everyl (fun _ => True) (es ++ m1) l). { clear - V2. induction l as [|d l IH]; [exact I|]. rewrite everyl_cons in *. destruct V2. split; [apply every_ext|]; auto. }
        specialize (IHl (es ++ m1) V2'). destruct (scales k (es ++ m1) l) as [es2 l2]. destruct IHl as ([m2 ->] & W2 & N2 & E2 & G2). split; [exists (m1 ++ m2); rewrite app_assoc; reflexivity|]. split.
        { rewrite everyl_cons. split; [apply every_ext, W1|exact W2]. }
        split; [discriminate|]. split.
        + intros x acc. rewrite !values_cons. rewrite (value_ext (es ++ m1) m2 c1 x W1), E1. destruct (value es c x) as [v|] eqn:Ev; cbn [rbind scaled]; [|reflexivity].
          replace (k * acc + k * v) with (k * (acc + v)) by ring. rewrite E2. f_equal. clear - V2. revert V2. generalize (acc + v). induction l as [|d l IH]; intros q V; [reflexivity|]. rewrite everyl_cons in V. destruct V as [V1 V2]. rewrite !values_cons, (value_ext es m1 d x V1). destruct (value es d x); cbn [rbind]; auto.
        + intros x acc H. rewrite everyl_cons in H. destruct H as [H1 H2]. rewrite !gradients_cons. rewrite (gradient_ext (es ++ m1) m2 c1 x W1), (G1 x H1). destruct (gradient es c x) as [v|] eqn:Ev; cbn [rbind scaled_array]; [|reflexivity].
          assert (Hp : forall w, plus (map (fun t => k * t) w) (map (fun t => k * t) v) = scaled_array k (plus w v)).
          { intros w. unfold plus. rewrite !map_length. destruct (Nat.eqb (length w) (length v)); [|reflexivity]. cbn. f_equal. clear. revert v. induction w as [|p w IH]; intros [|q v]; cbn; auto. rewrite IH. f_equal. ring. }
          assert (H2' : everyl (fun e => forall y, o_T (e_op e) (map (fun t => k * t) y) = scaled_array k (o_T (e_op e) y)) (es ++ m1) l). { clear - H2. induction l as [|d l IH]; [exact I|]. rewrite everyl_cons in *. destruct H2. split; [apply every_ext|]; auto. }
          assert (X : forall q, gradients (es ++ m1) l x q = gradients es l x q). { clear - V2. intros q. revert V2 q. induction l as [|d l IH]; intros V q; [reflexivity|]. rewrite everyl_cons in V. destruct V as [V1 V2]. rewrite !gradients_cons, (gradient_ext es m1 d x V1). destruct (gradient es d x) as [g|]; cbn [rbind]; [|reflexivity]. destruct (match q with Some w => plus w g | None => Ok g end); cbn [rbind]; auto. }
          destruct acc as [w|]; cbn [option_map rbind].
          * rewrite Hp. destruct (plus w v) as [p|]; cbn [rbind scaled_array]; [|reflexivity]. specialize (G2 x (Some p) H2'). rewrite X in G2. exact G2.
          * specialize (G2 x (Some v) H2'). rewrite X in G2. exact G2. }
    rewrite every_Cr in V. destruct V as [N V]. specialize (H es V). destruct (scales k es l) as [es' l']. destruct H as (M & W & N' & E & G). split; [exact M|]. split; [rewrite every_Cr; auto|]. split.
    + intros x. rewrite !value_Cr, <- E. f_equal. ring.
    + intros x. rewrite every_Cr, !gradient_Cr. intros [_ H]. apply (G x None H).
Qed.

(** sums *)
Lemma make_criterion_inv es l c : make_criterion es l = Ok c -> c = Cr l /\ l <> [].
Proof. destruct l as [|a l]; [discriminate|]. cbn [make_criterion]. destruct (forallb _ _); [|discriminate]. intros E. injection E as <-. split; [reflexivity|discriminate]. Qed.
Lemma add_inv es a b c : add es a b = Ok c -> c = Cr ((match a with El _ => [a] | Cr l => l end) ++ (match b with El _ => [b] | Cr l => l end)).
Proof.
  destruct a as [i|l], b as [j|m]; cbn [add]; try (destruct (shape_eqb _ _); [|discriminate]); intros E; apply make_criterion_inv in E; destruct E as [-> _]; reflexivity.
Qed.
Lemma values_flat es a x acc : values es (match a with El _ => [a] | Cr l => l end) x acc = (v <- value es a x ;; Ok (acc + v)).
Proof. destruct a as [i|l]; [reflexivity|]. rewrite value_Cr, values_acc. reflexivity. Qed.
Lemma add_value es a b c x : add es a b = Ok c -> value es c x = summed (value es a x) (value es b x).
Proof.
  intros E. rewrite (add_inv _ _ _ _ E), value_Cr, values_app, values_flat. unfold summed. destruct (value es a x) as [v|]; cbn [rbind]; [|reflexivity]. rewrite values_flat. destruct (value es b x) as [w|]; cbn [rbind]; [|reflexivity]. f_equal. ring.
Qed.
Lemma add_zero_value es a c x : add_zero es a = Ok c -> value es c x = value es a x.
Proof. intros E. unfold add_zero in E. apply make_criterion_inv in E. destruct E as [-> _]. rewrite value_Cr, values_cons. destruct (value es a x) as [v|]; cbn; [|reflexivity]. f_equal. ring. Qed.
Lemma gradients_flat es a x : valid es a -> gradients es (match a with El _ => [a] | Cr l => l end) x None = gradient es a x.
Proof. destruct a as [i|l]; intros V; [|reflexivity]. rewrite gradients_cons. destruct (gradient es (El i) x); reflexivity. Qed.
Lemma add_gradient es a b c x u v : valid es a -> valid es b -> add es a b = Ok c -> gradient es a x = Ok u -> gradient es b x = Ok v -> length u = length v -> gradient es c x = Ok (map2 radd u v).
Proof.
  intros Va Vb E Ea Eb L. rewrite (add_inv _ _ _ _ E), gradient_Cr, gradients_app.
  - rewrite (gradients_flat es a x Va), Ea. cbn [rbind]. apply gradients_acc; [exact L|]. rewrite (gradients_flat es b x Vb). exact Eb.
  - left. destruct a as [|l]; [discriminate|]. apply Va.
Qed.
Lemma add_valid P es a b c : every P es a -> every P es b -> add es a b = Ok c -> every P es c.
Proof.
  intros Va Vb E. rewrite (add_inv _ _ _ _ E). rewrite every_Cr. split.
  - destruct a as [i|l]; [discriminate|]. destruct Va as [N _]. destruct l; [congruence|discriminate].
  - rewrite everyl_app. split; [destruct a as [|l]; [split; [exact Va|exact I]|apply Va]|destruct b as [|l]; [split; [exact Vb|exact I]|apply Vb]].
Qed.

(** the criteria with priors *)
Definition acc_value es (acc : option component) x : result K := match acc with None => Ok 0 | Some c => value es c x end.
Fixpoint pen (hypers : list K) (els : list (element K)) x : result K :=
  match hypers, els with h :: hypers, e :: els => v <- element_value e x ;; w <- pen hypers els x ;; Ok (h * v + w) | _, _ => Ok 0 end.
Lemma prior_ok hypers : forall es els acc es' acc', match acc with None => True | Some c => valid es c end -> prior es hypers els acc = Ok (es', acc') ->
  (exists m, es' = es ++ m) /\ match acc' with None => True | Some c => valid es' c end /\ forall x, acc_value es' acc' x = (v <- acc_value es acc x ;; w <- pen hypers els x ;; Ok (v + w)).
Proof.
  induction hypers as [|h hypers IH]; intros es els acc es' acc' V E.
  { cbn in E. injection E as <- <-. split; [exists []; rewrite app_nil_r; reflexivity|]. split; [exact V|]. intros x. cbn. destruct (acc_value es acc x); cbn; [|reflexivity]. f_equal. ring. }
  destruct els as [|e els].
  { cbn in E. injection E as <- <-. split; [exists []; rewrite app_nil_r; reflexivity|]. split; [exact V|]. intros x. cbn. destruct (acc_value es acc x); cbn; [|reflexivity]. f_equal. ring. }
  cbn [prior] in E. assert (V1 : valid (es ++ [e]) (El (length es))) by (cbn; rewrite nth_error_app2, Nat.sub_diag by lia; exact I).
  pose proof (scale_ok h _ _ V1) as H. destruct (scale h (es ++ [e]) (El (length es))) as [es1 a]. destruct H as ([m1 ->] & Va & Ev & _).
  assert (Vx : forall x, value ((es ++ [e]) ++ m1) a x = scaled h (element_value e x)). { intros x. rewrite Ev. cbn [value]. rewrite nth_error_app2, Nat.sub_diag by lia. reflexivity. }
  set (es1 := (es ++ [e]) ++ m1) in *. assert (Es : exists m, es1 = es ++ m) by (exists ([e] ++ m1); unfold es1; rewrite !app_assoc; reflexivity). destruct Es as [m Es].
  destruct (match acc with Some b => add es1 b a | None => add_zero es1 a end) as [c|] eqn:Ec; cbn [rbind] in E; [|discriminate].
  assert (Vc : valid es1 c /\ forall x, value es1 c x = (v <- acc_value es acc x ;; w <- value es1 a x ;; Ok (v + w))).
  { destruct acc as [b|].
    - assert (Vb : valid es1 b) by (rewrite Es; apply every_ext, V). split; [apply (add_valid _ es1 b a c Vb Va Ec)|]. intros x. rewrite (add_value es1 b a c x Ec). cbn [acc_value]. rewrite Es at 1. rewrite (value_ext es m b x V). reflexivity.
    - split; [unfold add_zero in Ec; apply make_criterion_inv in Ec; destruct Ec as [-> _]; split; [discriminate|split; [exact Va|exact I]]|]. intros x. rewrite (add_zero_value es1 a c x Ec). cbn. destruct (value es1 a x); cbn; [|reflexivity]. f_equal. ring. }
  destruct Vc as [Vc Ecx]. destruct (IH es1 els (Some c) es' acc' Vc E) as ([m' Em] & W & X). split; [exists (m ++ m'); rewrite Em, Es, app_assoc; reflexivity|]. split; [exact W|]. intros x. rewrite X. cbn [acc_value]. rewrite Ecx, Vx. cbn [pen].
  destruct (acc_value es acc x) as [v|]; cbn [rbind]; [|reflexivity]. unfold scaled. destruct (element_value e x) as [w|]; cbn [rbind]; [|reflexivity]. destruct (pen hypers els x) as [q|]; cbn [rbind]; [|reflexivity]. f_equal. ring.
Qed.
Lemma pen_zip x : forall hypers norms priors, pen hypers (zip_elements norms priors) x = penalty norms hypers priors x.
Proof.
  induction hypers as [|h hypers IH]; intros norms priors; [destruct norms; reflexivity|]. destruct norms as [|N norms]; [reflexivity|]. destruct priors as [|o priors]; [reflexivity|]. cbn [zip_elements pen penalty]. unfold element_value, misfit. cbn [e_op e_data e_norm]. rewrite IH.
  destruct (o_call o x); reflexivity.
Qed.
Lemma criterion_ok norms model data hypers priors es c : criterion_of norms model data hypers priors = Ok (es, c) -> exists N norms', norms = N :: norms' /\ valid es c /\
  forall x, value es c x = (v <- element_value (Element N model (Some (snd data))) x ;; w <- penalty norms' hypers priors x ;; Ok (v + w)).
Proof.
  destruct norms as [|N norms]; [discriminate|]. cbn [criterion_of]. intros E. exists N, norms. split; [reflexivity|].
  destruct (make_element N model (Some data)) as [e|] eqn:Ee; cbn [rbind] in E; [|discriminate].
  assert (e = Element N model (Some (snd data))) as ->. { unfold make_element in Ee. destruct data as [sh d]. destruct (data_ok sh (o_out model)) as [[]|]; cbn in Ee; try discriminate. injection Ee as <-. reflexivity. }
  destruct (prior _ hypers _ None) as [[es1 acc]|] eqn:Ep; cbn [rbind fst snd] in E; [|discriminate].
  destruct (prior_ok hypers _ _ None _ _ I Ep) as ([m ->] & V & X).
  assert (V0 : valid ([Element N model (Some (snd data))] ++ m) (El 0)) by exact I.
  destruct acc as [b|].
  - destruct (add _ (El 0) b) as [c'|] eqn:Ea; cbn [rbind] in E; [|discriminate]. injection E as <- <-. split; [apply (add_valid _ _ _ _ _ V0 V Ea)|]. intros x. etransitivity; [exact (add_value _ _ _ _ x Ea)|]. cbn [value nth_error app]. specialize (X x). cbn [acc_value rbind] in X. rewrite pen_zip in X. cbn [app] in X. rewrite X. unfold summed.
    destruct (element_value _ x) as [v|]; cbn [rbind]; [|reflexivity]. destruct (penalty norms hypers priors x) as [w|]; cbn [rbind]; [|reflexivity]. f_equal. ring.
  - destruct (add_zero _ (El 0)) as [c'|] eqn:Ea; cbn [rbind] in E; [|discriminate]. injection E as <- <-. split.
    + unfold add_zero in Ea. apply make_criterion_inv in Ea. destruct Ea as [-> _]. split; [discriminate|]. split; [exact V0|exact I].
    + intros x. etransitivity; [exact (add_zero_value _ _ _ x Ea)|]. cbn [value nth_error app]. specialize (X x). cbn [acc_value rbind] in X. rewrite pen_zip in X. destruct (element_value _ x) as [v|]; cbn [rbind]; [|reflexivity].
      destruct (penalty norms hypers priors x) as [w|]; cbn [rbind] in *; [|discriminate]. injection X as X. f_equal. replace w with (0 + w) by ring. rewrite <- X. ring.
Qed.

(** success *)
Definition same (s : option (list nat)) (e : element K) : Prop := o_in (e_op e) = s.
Lemma shapein_ok s es c : every (same s) es c -> shapein es c = s.
Proof.
  induction c as [id|l IH] using component_rect'; [cbn; destruct (nth_error es id); [auto|tauto]|]. rewrite every_Cr. intros [N E]. destruct IH as [|c l Hc _]; [congruence|]. rewrite everyl_cons in E. apply Hc, E.
Qed.
Lemma shape_eqb_refl s : shape_eqb s s = true.
Proof. destruct s as [s|]; [|reflexivity]. cbn. destruct (list_eq_dec _ s s); congruence. Qed.
Lemma make_criterion_ok s es l : l <> [] -> everyl (same s) es l -> make_criterion es l = Ok (Cr l).
Proof.
  intros N E. destruct l as [|c l]; [congruence|]. cbn [make_criterion]. assert (forallb (fun d => shape_eqb (shapein es d) (shapein es c)) (c :: l) = true) as ->; [|reflexivity]. apply forallb_forall. intros d Hd.
  assert (H : forall d, In d (c :: l) -> shapein es d = s). { clear - E. intros d Hd. induction (c :: l) as [|a m IH]; [destruct Hd|]. rewrite everyl_cons in E. destruct E, Hd as [<-|Hd]; auto using shapein_ok. }
  rewrite (H d Hd), (H c) by (left; reflexivity). apply shape_eqb_refl.
Qed.
Lemma add_ok s es a b : every (same s) es a -> every (same s) es b -> exists c, add es a b = Ok c /\ every (same s) es c.
Proof.
  intros A B. assert (exists c, add es a b = Ok c) as [c E].
  { destruct a as [i|l], b as [j|m]; cbn [add]; rewrite ?(shapein_ok s es _ A), ?(shapein_ok s es _ B), ?shape_eqb_refl.
    - eexists. apply (make_criterion_ok s); [discriminate|]. split; [exact A|]. split; [exact B|exact I].
    - eexists. apply (make_criterion_ok s); [discriminate|]. split; [exact A|]. apply B.
    - eexists. apply (make_criterion_ok s); [destruct l; discriminate|]. rewrite everyl_app. split; [apply A|]. split; [exact B|exact I].
    - eexists. apply (make_criterion_ok s); [destruct A as [N _]; destruct l; [congruence|discriminate]|]. rewrite everyl_app. split; [apply A|apply B]. }
  exists c. split; [exact E|]. apply (add_valid _ es a b c A B E).
Qed.
Lemma prior_succeeds s hypers : forall es els acc, Forall (same s) els -> match acc with None => True | Some c => every (same s) es c end ->
  exists es' acc', prior es hypers els acc = Ok (es', acc') /\ (exists m, es' = es ++ m) /\ match acc' with None => True | Some c => every (same s) es' c end.
Proof.
  induction hypers as [|h hypers IH]; intros es els acc F V; [exists es, acc; split; [reflexivity|]; split; [exists []; rewrite app_nil_r; reflexivity|exact V]|].
  destruct F as [|e els He F]; [exists es, acc; split; [reflexivity|]; split; [exists []; rewrite app_nil_r; reflexivity|exact V]|].
  cbn [prior scale]. rewrite nth_error_app2, Nat.sub_diag by lia. cbn [nth_error]. set (e' := Element (norm_mul h (e_norm e)) (e_op e) (e_data e)). set (a := El (length (es ++ [e]))). set (es1 := (es ++ [e]) ++ [e']).
  assert (Va : every (same s) es1 a). { unfold a, es1. cbn [every]. rewrite nth_error_app2, Nat.sub_diag by lia. exact He. }
  assert (X : exists c, match acc with Some b => add es1 b a | None => add_zero es1 a end = Ok c /\ every (same s) es1 c).
  { destruct acc as [b|].
    - apply (add_ok s); [unfold es1; rewrite <- app_assoc; apply every_ext, V|exact Va].
    - exists (Cr [a]). split; [apply (make_criterion_ok s); [discriminate|split; [exact Va|exact I]]|]. split; [discriminate|]. split; [exact Va|exact I]. }
  destruct X as (c & -> & Vc). cbn [rbind]. destruct (IH es1 els (Some c) F Vc) as (es' & acc' & E & [m Em] & V'). exists es', acc'. split; [exact E|]. split; [exists ([e] ++ [e'] ++ m); rewrite Em; unfold es1; rewrite <- !app_assoc; reflexivity|exact V'].
Qed.
Lemma criterion_succeeds N norms model data hypers priors m : o_out model = Some [m] -> fst data = [m] -> Forall (fun o => o_in o = o_in model) priors -> exists es c, criterion_of (N :: norms) model data hypers priors = Ok (es, c).
Proof.
  intros Ho Hd Hp. cbn [criterion_of]. destruct data as [sh d]. cbn [fst] in Hd. subst sh. unfold make_element, data_ok. rewrite Ho. cbn [fold_left rbind]. rewrite Nat.mul_1_l, Nat.eqb_refl. cbn [rbind].
  set (e := Element N model (Some d)). assert (F : Forall (same (o_in model)) (zip_elements norms priors)).
  { revert norms. clear - Hp. induction Hp as [|o priors H _ IH]; intros [|N norms]; cbn; auto. }
  destruct (prior_succeeds (o_in model) hypers [e] _ None F I) as (es & acc & E & [q ->] & V). rewrite E. cbn [rbind fst snd]. assert (V0 : every (same (o_in model)) ([e] ++ q) (El 0)) by reflexivity.
  destruct acc as [b|].
  - destruct (add_ok (o_in model) _ _ _ V0 V) as (c & -> & _). cbn. eauto.
  - unfold add_zero. rewrite (make_criterion_ok (o_in model)); [cbn; eauto|discriminate|split; [exact V0|exact I]].
Qed.
End Sums.
