From Verif Require Import Base Algebra Matrix VarModel VarSpec.
Set Implicit Arguments. Unset Strict Implicit.

Section Proofs.
Context {K : cring} {n : nat} (eqb : K -> K -> bool) (E : forall a b, eqb a b = true <-> a = b).
Add Ring Kr : (rth K).
Notation T := (bind2 times).
Notation mval := (option (value K n)).

(** ** Matrices *)
Lemma map_mul_l {m p q} a (A : mx K m p) (B : mx K p q) : mulmx (mapmx (rmul a) A) B = mapmx (rmul a) (mulmx A B).
Proof.
  apply mx_eq. intros. unfold mulmx, mapmx. rewrite !el_build by assumption. rewrite <- sum_mul_l. apply sum_ext. intros. rewrite el_build by assumption. ring.
Qed.
Lemma map_mul_r {m p q} a (A : mx K m p) (B : mx K p q) : mulmx A (mapmx (rmul a) B) = mapmx (rmul a) (mulmx A B).
Proof.
  apply mx_eq. intros. unfold mulmx, mapmx. rewrite !el_build by assumption. rewrite <- sum_mul_l. apply sum_ext. intros. rewrite el_build by assumption. ring.
Qed.
Lemma map_map {m p} a b (A : mx K m p) : mapmx (rmul a) (mapmx (rmul b) A) = mapmx (rmul (rmul a b)) A.
Proof. apply mx_eq. intros. unfold mapmx. rewrite !el_build by assumption. ring. Qed.
Lemma map_1 {m p} (A : mx K m p) : mapmx (rmul r1) A = A.
Proof. apply mx_eq. intros. unfold mapmx. rewrite !el_build by assumption. ring. Qed.
Lemma map_comm {m p} a b (A : mx K m p) : mapmx (rmul (rmul a b)) A = mapmx (rmul (rmul b a)) A.
Proof. apply mx_eq. intros. unfold mapmx. rewrite !el_build by assumption. ring. Qed.
Lemma map_add {m p} a (A B : mx K m p) : mapmx (rmul a) (addmx A B) = addmx (mapmx (rmul a) A) (mapmx (rmul a) B).
Proof. apply mx_eq. intros. unfold mapmx, addmx. rewrite !el_build by assumption. ring. Qed.

(** ** Values *)
Lemma scale_1 (v : value K n) : scale r1 v = v.
Proof. destruct v; cbn [scale]; rewrite ?map_1; f_equal. ring. Qed.
Lemma T_1l (v : mval) : T (Some (Sc r1)) v = v.
Proof. destruct v as [v|]; [|reflexivity]. cbn [bind2 times]. now rewrite scale_1. Qed.
Lemma T_comm a (v : mval) : T v (Some (Sc a)) = T (Some (Sc a)) v.
Proof. destruct v as [[]|]; cbn [bind2 times scale]; try reflexivity. f_equal. f_equal. ring. Qed.
Lemma T_1r (v : mval) : T v (Some (Sc r1)) = v. Proof. now rewrite T_comm, T_1l. Qed.
Lemma T_assoc (u v w : mval) : T (T u v) w = T u (T v w).
Proof.
  destruct u as [[]|], v as [[]|], w as [[]|]; cbn [bind2 times scale]; try reflexivity;
  rewrite ?map_mul_l, ?map_mul_r, ?map_map, ?mulmxA; try reflexivity; f_equal; f_equal; try apply map_comm; ring.
Qed.
Lemma T_none (v : mval) : T v None = None. Proof. now destruct v. Qed.
Lemma transposed_times (u v : mval) : option_map transposed (T u v) = T (option_map transposed v) (option_map transposed u).
Proof.
  destruct u as [[]|], v as [[]|]; cbn [bind2 times scale option_map transposed]; try reflexivity; rewrite ?trmx_mul, ?map_trmx; try reflexivity.
  f_equal. f_equal. ring.
Qed.
Lemma transposed_plus (u v : mval) : option_map transposed (bind2 plus u v) = bind2 plus (option_map transposed u) (option_map transposed v).
Proof. destruct u as [[]|], v as [[]|]; cbn [bind2 plus option_map transposed]; try reflexivity; now rewrite trmxD, ?trmx_scalar. Qed.

(** ** Operands *)
Context (x : nat -> mx K n 1).
Notation P := (product x).
Notation V := (value1 x).

Lemma value_sum p q : V (Sum p q) = bind2 plus (P p) (P q).
Proof.
  assert (G : forall l, (fix go l := match l with [] => Some (Sc r1) | b :: l => T (V b) (go l) end) l = P l).
  { induction l as [|a l IH]; [reflexivity|]. now rewrite IH. }
  cbn [value1]. now rewrite !G.
Qed.
Lemma product_app l l' : P (l ++ l') = T (P l) (P l').
Proof. induction l as [|a l IH]; cbn [app product fold_right]; [now rewrite T_1l|]. fold (P (l ++ l')) (P l). now rewrite IH, T_assoc. Qed.
Lemma product_cons a l : P (a :: l) = T (V a) (P l). Proof. reflexivity. Qed.
Lemma product_1 a : P [a] = V a. Proof. rewrite product_cons. apply T_1r. Qed.

Lemma homothety_value a h : homothety eqb a = Ok h -> V h = Some (Sc a).
Proof.
  unfold homothety. destruct (eqb a r0); [discriminate|]. destruct (eqb a r1) eqn:e; intros [= <-]; [|reflexivity].
  apply E in e. subst. reflexivity.
Qed.
Lemma pair_value a b c : pair_rule eqb a b = Ok (Some c) -> V c = T (V a) (V b).
Proof.
  destruct a, b; cbn [pair_rule]; try discriminate; try (intros [= <-]; cbn [value1]; rewrite ?T_1l, ?T_1r; reflexivity).
  destruct (homothety eqb (rmul a a0)) as [h|] eqn:e; [|discriminate]. intros [= <-]. rewrite (homothety_value e). reflexivity.
Qed.
Lemma push_value l : forall a l', push eqb a l = Ok l' -> P l' = T (V a) (P l).
Proof.
  induction l as [|b l IH]; intros a l'; cbn [push].
  - intros [= <-]. reflexivity.
  - destruct (pair_rule eqb a b) as [[c|]|] eqn:e; cbn [rbind]; [|intros [= <-]; reflexivity|discriminate].
    intros H. rewrite (IH _ _ H), (pair_value e), product_cons. apply T_assoc.
Qed.
Lemma loop_value l : forall l', loop eqb l = Ok l' -> P l' = P l.
Proof.
  induction l as [|a l IH]; intros l'; cbn [loop]; [now intros [= <-]|].
  destruct (loop eqb l) as [l1|] eqn:e; cbn [rbind]; [|discriminate]. intros H. rewrite (push_value H), (IH _ eq_refl). reflexivity.
Qed.
Lemma scalars_value l : T (Some (Sc (scalars l))) (P (map erase l)) = P l.
Proof.
  induction l as [|a l IH]; [apply T_1l|]. cbn [map]. rewrite !product_cons, <- IH.
  assert (G : forall v, T (Some (Sc (scalars l))) (T v (P (map erase l))) = T v (T (Some (Sc (scalars l))) (P (map erase l)))).
  { intros v. now rewrite <- T_assoc, <- T_comm, T_assoc. }
  destruct a; cbn [scalars erase]; try apply G. cbn [value1]. rewrite T_1l, <- T_assoc. reflexivity.
Qed.
Lemma absorb_value a l : forall l', absorb a l = Some l' -> P l' = T (Some (Sc a)) (P l).
Proof.
  induction l as [|b l IH]; intros l'; [discriminate|].
  assert (G : match absorb a l with Some l' => Some (b :: l') | None => None end = Some l' -> P l' = T (Some (Sc a)) (P (b :: l))).
  { destruct (absorb a l) as [l1|]; [|discriminate]. intros [= <-]. now rewrite !product_cons, (IH _ eq_refl), <- !T_assoc, T_comm. }
  destruct b as [| | | |A []|]; try exact G. cbn [absorb]. intros [= <-]. rewrite !product_cons, <- T_assoc. reflexivity.
Qed.
Lemma gather_value l l' : gather eqb l = Ok l' -> P l' = P l.
Proof.
  unfold gather. destruct (eqb (scalars l) r1) eqn:e.
  - intros [= <-]. apply E in e. rewrite <- (scalars_value l), e. now rewrite T_1l.
  - destruct (homothety eqb (scalars l)) as [h|] eqn:eh; cbn [rbind]; [|discriminate].
    destruct (absorb _ _) as [l1|] eqn:ea; intros [= <-].
    + now rewrite (absorb_value ea), scalars_value.
    + now rewrite product_cons, (homothety_value eh), scalars_value.
Qed.
Lemma compose_value l l' : compose eqb l = Ok l' -> P l' = P l.
Proof.
  destruct l as [|a [|b l]]; cbn [compose]; try now intros [= <-].
  destruct (gather eqb _) as [l1|] eqn:e; cbn [rbind]; [|discriminate]. intros H. now rewrite (loop_value H), (gather_value e).
Qed.

(** ** Transposes *)
Lemma atom_ind2 (Q : atom K n -> Prop) : (forall i, Q (Var i)) -> (forall i, Q (VarT i)) -> (forall a, Q (Hom a)) -> Q Id ->
  (forall A b, Q (Lin A b)) -> (forall p q, Forall Q p -> Forall Q q -> Q (Sum p q)) -> forall a, Q a.
Proof.
  intros q1 q2 q3 q4 q5 q6. fix F 1. intros [i|i|a| |A b|p q]; [apply q1|apply q2|apply q3|apply q4|apply q5|].
  apply q6; [induction p as [|a p IH]|induction q as [|a q IH]]; constructor; auto.
Qed.
Lemma transpose_sum (p q : list (atom K n)) : transpose1 eqb (Sum p q) =
  (p1 <- rmap (transpose1 eqb) p ;; p2 <- compose eqb (rev p1) ;; q1 <- rmap (transpose1 eqb) q ;; q2 <- compose eqb (rev q1) ;; Ok (@Sum K n p2 q2)).
Proof.
  assert (G : forall l, (fix go (l : list (atom K n)) := match l with [] => Ok [] | b :: l => b' <- transpose1 eqb b ;; l' <- go l ;; Ok (b' :: l') end) l =
    rmap (transpose1 eqb) l).
  { induction l as [|a l IH]; [reflexivity|]. now rewrite IH. }
  cbn [transpose1]. now rewrite !G.
Qed.
Definition trval (a : atom K n) : Prop := forall b, transpose1 eqb a = Ok b -> V b = option_map transposed (V a).
Lemma transpose_list l : Forall trval l -> forall l1, rmap (transpose1 eqb) l = Ok l1 -> P (rev l1) = option_map transposed (P l).
Proof.
  induction 1 as [|a l Ha Hl IH]; intros l1; cbn [rmap]; [now intros [= <-]|].
  destruct (transpose1 eqb a) as [b|] eqn:e; cbn [rbind]; [|discriminate].
  destruct (rmap (transpose1 eqb) l) as [l2|]; cbn [rbind]; [|discriminate]. intros [= <-]. cbn [rev].
  now rewrite product_app, product_1, (IH _ eq_refl), (Ha _ e), product_cons, transposed_times.
Qed.
Lemma transpose_value a : trval a.
Proof.
  induction a using atom_ind2; intros c; try (intros [= <-]; cbn [value1 option_map transposed]; now rewrite ?trmxK).
  rewrite transpose_sum. destruct (rmap _ p) as [p1|] eqn:ep; cbn [rbind]; [|discriminate]. destruct (compose eqb (rev p1)) as [p2|] eqn:ep2; cbn [rbind]; [|discriminate].
  destruct (rmap _ q) as [q1|] eqn:eq; cbn [rbind]; [|discriminate]. destruct (compose eqb (rev q1)) as [q2|] eqn:eq2; cbn [rbind]; [|discriminate].
  intros [= <-]. rewrite !value_sum, (compose_value ep2), (compose_value eq2), (transpose_list H ep), (transpose_list H0 eq).
  now rewrite transposed_plus.
Qed.

(** ** Objects *)
Definition holds (o : object K n) (v : mval) : Prop :=
  match o with Num a => v = Some (Sc a) | Op l => P l = v | NonLinear => True end.
Lemma composition_holds l o v : composition eqb l = Ok o -> P l = v -> holds o v.
Proof. unfold composition. destruct (compose eqb l) eqn:e; cbn [rbind]; [|discriminate]. intros [= <-] <-. apply (compose_value e). Qed.
Lemma hom_cases l : is_homothety l = true -> exists a, P l = Some (Sc a).
Proof. destruct l as [|[] [|]]; try discriminate; intros _; rewrite product_1; eexists; reflexivity. Qed.
Ltac hom := match goal with
  | H : (rbind (homothety eqb ?a) _) = Ok _ |- _ => let h := fresh "h" in let e := fresh "e" in
    destruct (homothety eqb a) as [h|] eqn:e; cbn [rbind] in H; [apply homothety_value in e|discriminate H] end.
Lemma var_mul_holds i o v r : holds o v -> var_mul eqb i o = Ok r -> holds r (T (Some (Col (x i))) v).
Proof.
  intros H R. unfold var_mul in R. destruct o as [a|l|]; cbn [holds] in H.
  - hom. subst v. apply (composition_holds R). rewrite product_cons, product_1, e. now rewrite T_comm.
  - subst v. destruct l as [|[] [|b l]]; cbn [is_homothety] in R; try (injection R as <-; exact I); apply (composition_holds R).
    + rewrite !product_cons. reflexivity.
    + cbn [app]. rewrite product_cons, !product_1. symmetry. apply T_comm.
    + cbn [app]. rewrite product_cons, !product_1. symmetry. apply T_comm.
  - injection R as <-. exact I.
Qed.
Lemma var_rmul_holds i o v r : holds o v -> var_rmul eqb i o = Ok r -> holds r (T v (Some (Col (x i)))).
Proof.
  intros H R. unfold var_rmul in R. destruct o as [a|l|]; cbn [holds] in H.
  - hom. subst v. apply (composition_holds R). now rewrite product_cons, product_1, e.
  - subst v. apply (composition_holds R). now rewrite product_app, product_1.
  - injection R as <-. exact I.
Qed.
Lemma vart_mul_holds i o v r : holds o v -> vart_mul eqb i o = Ok r -> holds r (T (V (VarT i)) v).
Proof.
  intros H R. unfold vart_mul in R. destruct o as [a|l|]; cbn [holds] in H; [| |discriminate].
  - hom. subst v. apply (composition_holds R). rewrite product_cons, product_1, e. now rewrite T_comm.
  - subst v. assert (G : (if is_homothety l then composition eqb (l ++ [VarT i]) else composition eqb (VarT i :: l)) = Ok r -> holds r (T (V (VarT i)) (P l))).
    { intros G. destruct (is_homothety l) eqn:e; [|apply (composition_holds G); apply product_cons].
      destruct (hom_cases e) as [a Ha]. apply (composition_holds G). now rewrite product_app, product_1, Ha, T_comm. }
    destruct l as [|[] [|b l]]; try exact (G R). discriminate R.
Qed.
Lemma vart_rmul_holds i o v r : holds o v -> vart_rmul eqb i o = Ok r -> holds r (T v (V (VarT i))).
Proof.
  intros H R. unfold vart_rmul in R. destruct o as [a|l|]; cbn [holds] in H; [| |discriminate].
  - hom. subst v. apply (composition_holds R). rewrite product_cons, product_1, e. now rewrite T_comm.
  - subst v. destruct (is_homothety l) eqn:e; [|discriminate R]. destruct (hom_cases e) as [a Ha]. apply (composition_holds R).
    now rewrite product_cons, Ha, T_comm.
Qed.

Definition kind (l : list (atom K n)) : option (nat + nat) := match l with [Var i] => Some (inl i) | [VarT i] => Some (inr i) | _ => None end.
Lemma kind_var l : match kind l with Some (inl i) => l = [Var i] | Some (inr i) => l = [VarT i] | None => True end.
Proof. destruct l as [|[] [|]]; reflexivity || exact I. Qed.
Lemma mul_kind o1 o2 : mul eqb o1 o2 =
  match o1, o2 with
  | Num a, Num b => Ok (Num (rmul a b))
  | Num a, NonLinear | NonLinear, Num a => if eqb a r0 then not_modelled else Ok NonLinear
  | NonLinear, NonLinear => Ok NonLinear
  | Op l, _ =>
      match kind l with
      | Some (inl i) => var_mul eqb i o2
      | Some (inr i) => vart_mul eqb i o2
      | None =>
          match o2 with
          | Op l' => match kind l' with Some (inl i) => var_rmul eqb i o1 | Some (inr i) => vart_rmul eqb i o1 | None => composition eqb (l ++ l') end
          | Num a => h <- homothety eqb a ;; composition eqb (l ++ [h])
          | NonLinear => Ok NonLinear
          end
      end
  | _, Op l' =>
      match kind l' with
      | Some (inl i) => var_rmul eqb i o1
      | Some (inr i) => vart_rmul eqb i o1
      | None => match o1 with Num a => h <- homothety eqb a ;; composition eqb (h :: l') | _ => Ok NonLinear end
      end
  end.
Proof.
  destruct o1 as [a|l|], o2 as [b|l'|]; try reflexivity; try (destruct l as [|[] [|]]; reflexivity); try (destruct l' as [|[] [|]]; reflexivity).
  destruct l as [|[] [|]]; try reflexivity; destruct l' as [|[] [|]]; reflexivity.
Qed.
Lemma mul_holds o1 o2 v1 v2 r : holds o1 v1 -> holds o2 v2 -> mul eqb o1 o2 = Ok r -> holds r (T v1 v2).
Proof.
  intros H1 H2. rewrite mul_kind. destruct o1 as [a|l|].
  - destruct o2 as [b|l'|].
    + intros [= <-]. cbn [holds] in *. subst. reflexivity.
    + pose proof (kind_var l') as k. destruct (kind l') as [[i|i]|]; intros R.
      * subst l'. cbn [holds] in H2. rewrite product_1 in H2. subst v2. apply (var_rmul_holds H1 R).
      * subst l'. cbn [holds] in H2. rewrite product_1 in H2. subst v2. apply (vart_rmul_holds H1 R).
      * hom. cbn [holds] in *. subst. apply (composition_holds R). rewrite product_cons, e. reflexivity.
    + destruct (eqb a r0); [discriminate|]. intros [= <-]. exact I.
  - pose proof (kind_var l) as k. destruct (kind l) as [[i|i]|]; intros R.
    + subst l. cbn [holds] in H1. rewrite product_1 in H1. subst v1. apply (var_mul_holds H2 R).
    + subst l. cbn [holds] in H1. rewrite product_1 in H1. subst v1. apply (vart_mul_holds H2 R).
    + destruct o2 as [b|l'|].
      * hom. cbn [holds] in *. subst. apply (composition_holds R). rewrite product_app, product_1, e. reflexivity.
      * clear k. pose proof (kind_var l') as k. destruct (kind l') as [[i|i]|].
        -- subst l'. cbn [holds] in H2. rewrite product_1 in H2. subst v2. apply (var_rmul_holds H1 R).
        -- subst l'. cbn [holds] in H2. rewrite product_1 in H2. subst v2. apply (vart_rmul_holds H1 R).
        -- cbn [holds] in *. subst. apply (composition_holds R). apply product_app.
      * injection R as <-. exact I.
  - destruct o2 as [b|l'|].
    + destruct (eqb b r0); [discriminate|]. intros [= <-]. exact I.
    + pose proof (kind_var l') as k. destruct (kind l') as [[i|i]|]; intros R; [injection R as <-; exact I|discriminate R|injection R as <-; exact I].
    + intros [= <-]. exact I.
Qed.
Lemma neg_holds o v r : holds o v -> neg eqb o = Ok r -> holds r (option_map (scale (ropp r1)) v).
Proof.
  intros H R. assert (M : option_map (scale (ropp r1)) v = T (Some (Sc (ropp r1))) v) by now destruct v.
  rewrite M. destruct o as [a|l|]; cbn [neg] in R.
  - injection R as <-. cbn [holds] in *. subst. cbn [bind2 times scale]. f_equal. f_equal. ring.
  - hom. apply (mul_holds (o1 := Op [h]) (o2 := Op l)); [|exact H|exact R]. cbn [holds]. now rewrite product_1.
  - hom. apply (mul_holds (o1 := Op [h]) (o2 := NonLinear)); [|exact H|exact R]. cbn [holds]. now rewrite product_1.
Qed.
Lemma operands_holds o v p : holds o v -> as_operands eqb o = Ok (Some p) -> P p = v.
Proof.
  destruct o as [a|l|]; cbn [as_operands holds]; intros H R; [|now injection R as <-|discriminate].
  hom. injection R as <-. now rewrite product_1, e.
Qed.
Lemma add_holds o1 o2 v1 v2 r : holds o1 v1 -> holds o2 v2 -> add eqb o1 o2 = Ok r -> holds r (bind2 plus v1 v2).
Proof.
  intros H1 H2.
  assert (G : (p <- as_operands eqb o1 ;; q <- as_operands eqb o2 ;;
      match p, q with
      | Some p, Some q => if is_homothety p && is_homothety q then not_modelled else Ok (Op [Sum p q])
      | _, _ => Ok NonLinear
      end) = Ok r -> holds r (bind2 plus v1 v2)).
  { destruct (as_operands eqb o1) as [[p|]|] eqn:e1; cbn [rbind]; [| |discriminate]; (destruct (as_operands eqb o2) as [[q|]|] eqn:e2; cbn [rbind]; [| |discriminate]);
    try (intros [= <-]; exact I).
    destruct (_ && _); [discriminate|]. intros [= <-]. cbn [holds]. rewrite product_1, value_sum.
    now rewrite (operands_holds H1 e1), (operands_holds H2 e2). }
  destruct o1 as [a|l|], o2 as [b|l'|]; try exact G. intros [= <-]. cbn [holds] in *. subst. reflexivity.
Qed.
Lemma sub_holds o1 o2 v1 v2 r : holds o1 v1 -> holds o2 v2 -> sub eqb o1 o2 = Ok r -> holds r (bind2 plus v1 (option_map (scale (ropp r1)) v2)).
Proof.
  intros H1 H2.
  assert (G : (m <- neg eqb o2 ;; add eqb o1 m) = Ok r -> holds r (bind2 plus v1 (option_map (scale (ropp r1)) v2))).
  { destruct (neg eqb o2) as [m|] eqn:e; cbn [rbind]; [|discriminate]. apply add_holds; [exact H1|]. apply (neg_holds H2 e). }
  destruct o1 as [a|l|], o2 as [b|l'|]; try exact G. intros [= <-]. cbn [holds] in *. subst. cbn [option_map scale bind2 plus]. f_equal. f_equal. ring.
Qed.
Lemma transpose_holds o v r : holds o v -> transpose eqb o = Ok r -> holds r (option_map transposed v).
Proof.
  destruct o as [a|l|]; cbn [transpose]; [discriminate| |discriminate]. cbn [holds]. intros <-.
  destruct (rmap (transpose1 eqb) l) as [l1|] eqn:e; cbn [rbind]; [|discriminate]. destruct (compose eqb (rev l1)) as [l2|] eqn:e2; cbn [rbind]; [|discriminate].
  intros [= <-]. cbn [holds]. rewrite (compose_value e2). apply (transpose_list (l := l)); [|exact e]. apply Forall_forall. intros a _. apply transpose_value.
Qed.
Lemma eval_holds e : forall r, eval eqb e = Ok r -> holds r (meaning x e).
Proof.
  induction e; intros r; cbn [eval meaning].
  1,2,4,5: intros [= <-]; cbn [holds]; rewrite ?product_1; reflexivity || exact I.
  { intros R. hom. injection R as <-. cbn [holds]. now rewrite product_1, e. }
  1,2: destruct (eval eqb e) as [o|] eqn:e0; cbn [rbind]; [|discriminate]; intros R; specialize (IHe _ eq_refl);
    first [apply (transpose_holds IHe R) | apply (neg_holds IHe R)].
  all: destruct (eval eqb e1) as [o|] eqn:e0; cbn [rbind]; [|discriminate];
    destruct (eval eqb e2) as [o2|] eqn:e3; cbn [rbind]; [|discriminate]; intros R.
  - apply (mul_holds (IHe1 _ eq_refl) (IHe2 _ eq_refl) R).
  - apply (add_holds (IHe1 _ eq_refl) (IHe2 _ eq_refl) R).
  - apply (sub_holds (IHe1 _ eq_refl) (IHe2 _ eq_refl) R).
Qed.

(** ** Which products are accepted *)
Fixpoint tail_ok (l : list (atom K n)) : bool :=
  match l with [] => true | (Lin _ _ | Hom _ | Id) :: l => tail_ok l | [Var _] => true | _ => false end.
Definition form (l : list (atom K n)) : bool := match l with VarT _ :: l => tail_ok l | _ => tail_ok l end.
Definition sf (a : atom K n) : bool := match a with Sum _ _ => false | _ => true end.

Lemma tail_form l : tail_ok l = true -> form l = true. Proof. now destruct l as [|[]]. Qed.
Lemma form_tail a l : form (a :: l) = true -> tail_ok l = true.
Proof. destruct a; cbn [form tail_ok]; auto. destruct l; [auto|discriminate]. discriminate. Qed.
Lemma form_sf l : form l = true -> forallb sf l = true.
Proof.
  assert (G : forall l, tail_ok l = true -> forallb sf l = true).
  { clear l. induction l as [|a l IH]; [reflexivity|]. destruct a; cbn [tail_ok forallb sf andb]; auto; try discriminate. destruct l; [auto|discriminate]. }
  destruct l as [|a l]; [reflexivity|]. intros H. destruct a; try (apply G; exact H). cbn [forallb sf andb]. now apply G.
Qed.
Lemma form_value l : form l = true -> exists v, P l = Some v.
Proof.
  assert (G : forall l, tail_ok l = true -> (exists a, P l = Some (Sc a)) \/ (exists A, P l = Some (Sq A)) \/ (exists M, P l = Some (Col M))).
  { clear l. induction l as [|a l IH]; [left; eexists; reflexivity|]. intros H. rewrite product_cons. destruct a; cbn [tail_ok] in H; try discriminate.
    - destruct l; [|discriminate]. right. right. eexists. reflexivity.
    - destruct (IH H) as [[b ->]|[[M ->]|[M ->]]]; cbn [value1 bind2 times scale]; eauto.
    - destruct (IH H) as [[b ->]|[[M ->]|[M ->]]]; cbn [value1 bind2 times scale]; eauto.
    - destruct (IH H) as [[b ->]|[[M ->]|[M ->]]]; cbn [value1 bind2 times scale]; eauto. }
  intros H. assert (D : tail_ok l = true \/ exists i l', l = VarT i :: l' /\ tail_ok l' = true).
  { destruct l as [|[] l]; auto. right. eauto. }
  destruct D as [D|[i [l' [-> D]]]].
  - destruct (G _ D) as [[a ->]|[[A ->]|[M ->]]]; eauto.
  - rewrite product_cons. destruct (G _ D) as [[a ->]|[[A ->]|[M ->]]]; cbn [value1 bind2 times]; eauto.
Qed.

Lemma push_form l : forall a l', sf a = true -> form l = true -> push eqb a l = Ok l' -> form l' = true.
Proof.
  induction l as [|b l IH]; intros a l' Ha Hl; cbn [push].
  - intros [= <-]. now destruct a.
  - pose proof (form_tail Hl) as Ht. destruct (pair_rule eqb a b) as [[c|]|] eqn:e; cbn [rbind]; [| |discriminate].
    + apply IH; [|now apply tail_form].
      destruct a, b; cbn [pair_rule] in e; try discriminate; try (injection e as <-; reflexivity || exact Ha || now destruct l).
      unfold homothety in e. destruct (eqb _ r0); [discriminate|]. destruct (eqb _ r1); cbn [rbind] in e; injection e as <-; reflexivity.
    + intros [= <-]. destruct a, b; cbn [pair_rule] in e; try discriminate; exact Hl.
Qed.
Lemma loop_form l : forall l', forallb sf l = true -> loop eqb l = Ok l' -> form l' = true.
Proof.
  induction l as [|a l IH]; intros l'; cbn [loop forallb]; [intros _ [= <-]; reflexivity|]. intros H. apply andb_true_iff in H. destruct H as [Ha Hl].
  destruct (loop eqb l) as [l1|] eqn:e; cbn [rbind]; [|discriminate]. apply push_form; [exact Ha|]. now apply IH.
Qed.
Lemma erase_sf l : forallb sf l = true -> forallb sf (map erase l) = true.
Proof. induction l as [|a l IH]; [reflexivity|]. cbn [forallb map]. intros H. apply andb_true_iff in H. destruct H as [Ha Hl]. rewrite (IH Hl), andb_true_r. now destruct a. Qed.
Lemma absorb_sf a l : forall l', forallb sf l = true -> absorb a l = Some l' -> forallb sf l' = true.
Proof.
  induction l as [|b l IH]; intros l'; [discriminate|]. cbn [forallb]. intros H. apply andb_true_iff in H. destruct H as [Hb Hl].
  assert (G : match absorb a l with Some l' => Some (b :: l') | None => None end = Some l' -> forallb sf l' = true).
  { destruct (absorb a l) as [l1|]; [|discriminate]. intros [= <-]. cbn [forallb]. now rewrite Hb, (IH _ Hl eq_refl). }
  destruct b as [| | | |A []|]; try exact G. intros [= <-]. exact Hl.
Qed.
Lemma homothety_sf a (h : atom K n) : homothety eqb a = Ok h -> h = Id /\ a = r1 \/ h = Hom a.
Proof. unfold homothety. destruct (eqb a r0); [discriminate|]. destruct (eqb a r1) eqn:e; intros [= <-]; [left|right; reflexivity]. now apply E in e. Qed.
Lemma gather_sf l l' : forallb sf l = true -> gather eqb l = Ok l' -> forallb sf l' = true.
Proof.
  intros H. apply erase_sf in H. unfold gather. destruct (eqb (scalars l) r1); [now intros [= <-]|].
  destruct (homothety eqb (scalars l)) as [h|] eqn:eh; cbn [rbind]; [|discriminate].
  destruct (absorb _ _) as [l1|] eqn:ea; intros [= <-]; [apply (absorb_sf H ea)|]. cbn [forallb]. rewrite H.
  destruct (homothety_sf eh) as [[-> _]| ->]; reflexivity.
Qed.
Lemma compose_form l l' : forallb sf l = true -> compose eqb l = Ok l' -> form l' = true.
Proof.
  intros H. destruct l as [|a [|b l]]; cbn [compose].
  - intros [= <-]. reflexivity.
  - intros [= <-]. destruct a; reflexivity || discriminate H.
  - destruct (gather eqb _) as [l1|] eqn:e; cbn [rbind]; [|discriminate]. apply loop_form. apply (gather_sf H e).
Qed.

(** The objects that expressions without sum give *)
Definition ok_object (o : object K n) : Prop := match o with Op l => form l = true | _ => True end.
Lemma composition_ok l r : forallb sf l = true -> composition eqb l = Ok r -> ok_object r.
Proof. unfold composition. intros H. destruct (compose eqb l) eqn:e; cbn [rbind]; [|discriminate]. intros [= <-]. apply (compose_form H e). Qed.
Lemma hom_sf a (h : atom K n) : homothety eqb a = Ok h -> sf h = true.
Proof. intros H. destruct (homothety_sf H) as [[-> _]| ->]; reflexivity. Qed.
Ltac homs := match goal with
  | H : (rbind (homothety eqb ?a) _) = Ok _ |- _ => let h := fresh "h" in let e := fresh "e" in
    destruct (homothety eqb a) as [h|] eqn:e; cbn [rbind] in H; [apply hom_sf in e|discriminate H] end.
Ltac solve_sf := rewrite ?forallb_app; cbn [forallb sf andb]; rewrite ?andb_true_r; repeat match goal with e : sf _ = true |- _ => rewrite e | H : forallb sf _ = true |- _ => rewrite H end; reflexivity.
Lemma mul_ok o1 o2 r : ok_object o1 -> ok_object o2 -> mul eqb o1 o2 = Ok r -> ok_object r.
Proof.
  intros H1 H2. rewrite mul_kind.
  assert (S1 : forall l, o1 = Op l -> forallb sf l = true) by (intros l ->; now apply form_sf).
  assert (S2 : forall l, o2 = Op l -> forallb sf l = true) by (intros l ->; now apply form_sf).
  assert (A1 : forall i, var_mul eqb i o2 = Ok r -> ok_object r).
  { intros i R. unfold var_mul in R. destruct o2 as [b|l'|]; [homs; apply (composition_ok (l := [h; Var i])); [solve_sf|exact R]| |injection R as <-; exact I].
    specialize (S2 l' eq_refl). destruct l' as [|[] [|]]; try (injection R as <-; exact I); refine (composition_ok _ R); reflexivity. }
  assert (A2 : forall i, vart_mul eqb i o2 = Ok r -> ok_object r).
  { intros i R. unfold vart_mul in R. destruct o2 as [b|l'|]; [homs; apply (composition_ok (l := [h; VarT i])); [solve_sf|exact R]| |discriminate R].
    specialize (S2 l' eq_refl).
    assert (G : (if is_homothety l' then composition eqb (l' ++ [VarT i]) else composition eqb (VarT i :: l')) = Ok r -> ok_object r).
    { destruct (is_homothety l'); apply composition_ok; solve_sf. }
    destruct l' as [|[] [|]]; try exact (G R). discriminate R. }
  assert (A3 : forall i, var_rmul eqb i o1 = Ok r -> ok_object r).
  { intros i R. unfold var_rmul in R. destruct o1 as [b|l'|]; [homs; apply (composition_ok (l := [h; Var i])); [solve_sf|exact R]| |injection R as <-; exact I].
    specialize (S1 l' eq_refl). refine (composition_ok _ R). solve_sf. }
  assert (A4 : forall i, vart_rmul eqb i o1 = Ok r -> ok_object r).
  { intros i R. unfold vart_rmul in R. destruct o1 as [b|l'|]; [homs; apply (composition_ok (l := [VarT i; h])); [solve_sf|exact R]| |discriminate R].
    specialize (S1 l' eq_refl). destruct (is_homothety l'); [|discriminate R]. refine (composition_ok _ R). solve_sf. }
  destruct o1 as [a|l|], o2 as [b|l'|]; intros R.
  - injection R as <-. exact I.
  - specialize (S2 _ eq_refl). destruct (kind l') as [[i|i]|]; eauto. homs. refine (composition_ok _ R). solve_sf.
  - destruct (eqb a r0); [discriminate R|]. injection R as <-. exact I.
  - specialize (S1 _ eq_refl). destruct (kind l) as [[i|i]|]; eauto. homs. refine (composition_ok _ R). solve_sf.
  - specialize (S1 _ eq_refl). specialize (S2 _ eq_refl). destruct (kind l) as [[i|i]|]; eauto. destruct (kind l') as [[i|i]|]; eauto. refine (composition_ok _ R). solve_sf.
  - destruct (kind l) as [[i|i]|]; [apply (A1 i R)|apply (A2 i R)|injection R as <-; exact I].
  - destruct (eqb b r0); [discriminate R|]. injection R as <-. exact I.
  - destruct (kind l') as [[i|i]|]; [apply (A3 i R)|apply (A4 i R)|injection R as <-; exact I].
  - injection R as <-. exact I.
Qed.
Lemma neg_ok o r : ok_object o -> neg eqb o = Ok r -> ok_object r.
Proof.
  intros H R. destruct o as [a|l|]; cbn [neg] in R; [injection R as <-; exact I| |]; homs;
  (refine (mul_ok (o1 := Op [h]) _ _ R); [|exact H]); destruct h; reflexivity || discriminate e.
Qed.
Lemma transpose_ok o r : ok_object o -> transpose eqb o = Ok r -> ok_object r.
Proof.
  destruct o as [a|l|]; cbn [transpose]; [discriminate| |discriminate]. intros H. apply form_sf in H.
  destruct (rmap (transpose1 eqb) l) as [l1|] eqn:e; cbn [rbind]; [|discriminate]. destruct (compose eqb (rev l1)) as [l2|] eqn:e2; cbn [rbind]; [|discriminate].
  intros [= <-]. refine (compose_form _ e2). clear e2 l2. rewrite forallb_forall. intros a Ha. apply in_rev in Ha. revert a Ha. rewrite <- forallb_forall.
  revert l1 e. induction l as [|a l IH]; intros l1; cbn [rmap]; [now intros [= <-]|]. cbn [forallb] in H. apply andb_true_iff in H. destruct H as [Ha Hl].
  destruct (transpose1 eqb a) as [b|] eqn:e; cbn [rbind]; [|discriminate]. destruct (rmap (transpose1 eqb) l) as [l2|]; cbn [rbind]; [|discriminate].
  intros [= <-]. cbn [forallb]. rewrite (IH Hl _ eq_refl), andb_true_r. destruct a; cbn [transpose1] in e; try (injection e as <-; reflexivity). discriminate Ha.
Qed.
Lemma eval_ok e : no_sum e -> forall r, eval eqb e = Ok r -> ok_object r.
Proof.
  induction e; cbn [no_sum]; intros N r; cbn [eval]; try contradiction.
  1,2,4,5: intros [= <-]; reflexivity || exact I.
  { intros R. homs. injection R as <-. cbn [ok_object]. destruct h; reflexivity || discriminate e. }
  1,2: destruct (eval eqb e) as [o|] eqn:e0; cbn [rbind]; [|discriminate]; intros R; specialize (IHe N _ eq_refl);
    first [apply (transpose_ok IHe R) | apply (neg_ok IHe R)].
  destruct N as [N1 N2]. destruct (eval eqb e1) as [o|] eqn:e0; cbn [rbind]; [|discriminate];
    destruct (eval eqb e2) as [o2|] eqn:e3; cbn [rbind]; [|discriminate]; intros R.
  apply (mul_ok (IHe1 N1 _ eq_refl) (IHe2 N2 _ eq_refl) R).
Qed.
Lemma eval_typed e l : no_sum e -> eval eqb e = Ok (Op l) -> exists v, meaning x e = Some v.
Proof. intros N R. pose proof (eval_ok N R) as F. pose proof (eval_holds R) as H. cbn [holds ok_object] in *. rewrite <- H. now apply form_value. Qed.
End Proofs.

Section Accepted.
Context {K : cring} {n : nat} (eqb : K -> K -> bool) (E : forall a b, eqb a b = true <-> a = b).
Add Ring Kr2 : (rth K).
(** ** The products that are accepted, exactly *)
Definition strip (l : list (atom K n)) := filter not_scalar l.
Definition plain (a : atom K n) : bool := match a with Hom _ => false | _ => true end.
(** The operands without identity, or one identity *)
Definition norm (l : list (atom K n)) : list (atom K n) :=
  match strip l with [] => match l with [] => [] | _ => [Id] end | s => s end.
Lemma push_same (a : atom K n) l : not_scalar a = true -> forallb not_scalar l = true -> form (a :: l) = true -> push eqb a l = Ok (a :: l).
Proof.
  intros Ha Hl F. destruct l as [|b l]; [reflexivity|]. cbn [forallb] in Hl. apply andb_true_iff in Hl. destruct Hl as [Hb _].
  destruct a, b; try discriminate; cbn [push pair_rule rbind]; reflexivity || discriminate F.
Qed.
Lemma strip_ns (l : list (atom K n)) : forallb not_scalar (strip l) = true.
Proof. apply forallb_forall. intros a H. apply filter_In in H. apply H. Qed.
Lemma strip_idem (l : list (atom K n)) : strip (strip l) = strip l.
Proof.
  induction l as [|a l IH]; [reflexivity|]. unfold strip in *. cbn [filter]. destruct (not_scalar a) eqn:e; [|exact IH]. cbn [filter]. now rewrite e, IH.
Qed.
Lemma form_strip_tail (a : atom K n) l : form (strip (a :: l)) = true -> form (strip l) = true.
Proof.
  unfold strip. cbn [filter]. destruct (not_scalar a); [|auto]. intros H. apply form_tail in H. now apply tail_form.
Qed.
Lemma norm_not_scalar (a : atom K n) l : not_scalar a = true -> norm (a :: l) = a :: strip l.
Proof. intros H. unfold norm, strip. cbn [filter]. now rewrite H. Qed.
Lemma loop_accepts (l : list (atom K n)) : forallb plain l = true -> form (strip l) = true -> loop eqb l = Ok (norm l).
Proof.
  induction l as [|a l IH]; [reflexivity|]. cbn [forallb loop]. intros H F. apply andb_true_iff in H. destruct H as [Ha Hl].
  rewrite (IH Hl (form_strip_tail F)). cbn [rbind]. destruct (not_scalar a) eqn:e.
  - rewrite (norm_not_scalar _ e). unfold strip in F. cbn [filter] in F. rewrite e in F. fold (strip l) in F. unfold norm.
    pose proof (strip_ns l) as N. destruct (strip l) as [|b s]; [|now apply push_same].
    destruct l as [|c l]; [reflexivity|]. destruct a; try discriminate; reflexivity.
  - destruct a; try discriminate. unfold norm, strip in *. cbn [filter not_scalar] in *. fold (strip l) in *.
    pose proof (strip_ns l) as N. destruct (strip l) as [|b s].
    + destruct l; reflexivity.
    + cbn [push pair_rule rbind]. cbn [forallb] in N. apply andb_true_iff in N. apply push_same; tauto.
Qed.
Lemma loop_rejects (l : list (atom K n)) : forallb plain l = true -> forallb sf l = true -> form (strip l) = false -> forall l', loop eqb l <> Ok l'.
Proof.
  induction l as [|a l IH]; [discriminate|]. cbn [forallb loop]. intros H S F l'. apply andb_true_iff in H. destruct H as [Ha Hl]. apply andb_true_iff in S. destruct S as [Sa Sl].
  destruct (form (strip l)) eqn:e.
  - rewrite (loop_accepts Hl e). cbn [rbind]. unfold strip in F. cbn [filter] in F. destruct (not_scalar a) eqn:ea; [|fold (strip l) in F; congruence].
    fold (strip l) in F. unfold norm. pose proof (strip_ns l) as N. destruct (strip l) as [|b s]; [destruct a; discriminate|].
    destruct a, b; try discriminate; cbn [form tail_ok] in *; congruence.
  - specialize (IH Hl Sl eq_refl). destruct (loop eqb l) as [l1|]; cbn [rbind]; [|discriminate]. exfalso. now apply (IH l1).
Qed.
Lemma strip_erase (l : list (atom K n)) : strip (map erase l) = strip l.
Proof. induction l as [|a l IH]; [reflexivity|]. unfold strip in *. destruct a; cbn [map erase filter not_scalar]; now rewrite IH. Qed.
Lemma erase_plain (l : list (atom K n)) : forallb plain (map erase l) = true.
Proof. induction l as [|a l IH]; [reflexivity|]. cbn [map forallb]. rewrite IH. now destruct a. Qed.
Lemma absorb_some a (l : list (atom K n)) : (exists A, In (Lin A true) l) <-> absorb a l <> None.
Proof.
  induction l as [|b l IH]; cbn [absorb In].
  - split; [intros [A []]|congruence].
  - assert (G : b <> Lin (match b with Lin A _ => A | _ => onemx n end) true ->
      ((exists A, b = Lin A true \/ In (Lin A true) l) <-> match absorb a l with Some l' => Some (b :: l') | None => None end <> None)).
    { intros D. split.
      - intros [A [->|HA]]; [exfalso; now apply D|]. destruct (absorb a l); [discriminate|]. exfalso. apply IH; [now exists A|reflexivity].
      - intros H. destruct (absorb a l) as [l1|] eqn:e; [|congruence]. destruct IH as [_ IH]. destruct IH as [A HA]; [discriminate|]. exists A. now right. }
    destruct b as [| | | |A []|]; try (apply G; discriminate). split; [discriminate|]. intros _. exists A. now left.
Qed.
Lemma absorb_plain a (l : list (atom K n)) : forall l', absorb a l = Some l' -> forallb plain l' = forallb plain l /\ form (strip l') = form (strip l).
Proof.
  assert (H : forall l l' : list (atom K n), absorb a l = Some l' -> forallb plain l' = forallb plain l /\ tail_ok (strip l') = tail_ok (strip l) /\
    form (strip l') = form (strip l) /\ (strip l' = [] <-> strip l = [])).
  { clear l. induction l as [|b l IH]; intros l'; [discriminate|].
    assert (G : match absorb a l with Some l' => Some (b :: l') | None => None end = Some l' ->
      forallb plain l' = forallb plain (b :: l) /\ tail_ok (strip l') = tail_ok (strip (b :: l)) /\ form (strip l') = form (strip (b :: l)) /\
      (strip l' = [] <-> strip (b :: l) = [])).
    { destruct (absorb a l) as [l1|]; [|discriminate]. intros [= <-]. destruct (IH _ eq_refl) as [i1 [i2 [i3 i4]]]. cbn [forallb]. rewrite i1.
      split; [reflexivity|]. unfold strip in *. cbn [filter]. destruct b; cbn [not_scalar]; try (split; [exact i2|split; [exact i3|exact i4]]);
      cbn [form tail_ok]; fold (strip l1) (strip l) in *.
      - destruct (strip l1), (strip l); split; try split; try split; try reflexivity; try discriminate; exfalso; destruct i4 as [j k]; (discriminate j || discriminate k); reflexivity.
      - split; [reflexivity|]. split; [exact i2|]. split; discriminate.
      - split; [exact i2|]. split; [exact i2|]. split; discriminate.
      - split; [reflexivity|]. split; [reflexivity|]. split; discriminate. }
    destruct b as [| | | |A []|]; try exact G. intros [= <-]. repeat split; discriminate. }
  intros l' R. destruct (H _ _ R) as [h1 [_ [h2 _]]]. now split.
Qed.
Lemma well_formed_form (l : list (atom K n)) : well_formed (strip l) <-> form (strip l) = true.
Proof.
  pose proof (strip_ns l) as N. generalize dependent (strip l). clear l. intros l N.
  assert (G : forall l : list (atom K n), forallb not_scalar l = true -> (tail_ok l = true <-> exists ops col, l = map (fun A => Lin (fst A) (snd A)) ops ++ col /\ (col = [] \/ exists i, col = [Var i]))).
  { clear l N. induction l as [|a l IH].
    - intros _. split; [intros _; exists [], []; auto|reflexivity].
    - cbn [forallb]. intros N. apply andb_true_iff in N. destruct N as [Na N]. specialize (IH N). split.
      + destruct a; try discriminate; cbn [tail_ok].
        * destruct l; [|discriminate]. intros _. exists [], [Var name]. split; [reflexivity|]. right. now exists name.
        * intros H. apply IH in H. destruct H as [ops [col [-> C]]]. exists ((A, takes) :: ops), col. auto.
      + intros [ops [col [e C]]]. destruct ops as [|o ops]; cbn [map app] in e.
        * destruct C as [->|[i ->]]; [discriminate|]. injection e as -> ->. reflexivity.
        * injection e as -> e. cbn [tail_ok]. apply IH. now exists ops, col. }
  split.
  - intros [row [ops [col [-> [[->|[i ->]] C]]]]]; cbn [app] in *.
    + apply tail_form, G; [exact N|]. now exists ops, col.
    + cbn [form]. apply G; [exact N|]. now exists ops, col.
  - intros F. assert (D : tail_ok l = true \/ exists i l', l = VarT i :: l' /\ tail_ok l' = true).
    { destruct l as [|[] l]; auto. right. eauto. }
    destruct D as [D|[i [l' [-> D]]]].
    + apply G in D; [|exact N]. destruct D as [ops [col [-> C]]]. exists [], ops, col. auto.
    + apply G in D; [|exact N]. destruct D as [ops [col [-> C]]]. exists [VarT i], ops, col. split; [reflexivity|]. split; [right; now exists i|exact C].
Qed.
Lemma in_erase A (l : list (atom K n)) : In (Lin A true) (map erase l) <-> In (Lin A true) l.
Proof.
  rewrite in_map_iff. split.
  - intros [b [e H]]. destruct b; try discriminate. now injection e as -> ->.
  - intros H. now exists (Lin A true).
Qed.
Lemma compose_accepts (l : list (atom K n)) : 2 <= length l -> (forall a, In a l -> ~ is_sum a) -> scalars l <> r0 ->
  ((exists l', compose eqb l = Ok l') <->
   well_formed (filter not_scalar l) /\ (starts_with_row (filter not_scalar l) -> scalars l = r1 \/ exists A, In (Lin A true) l)).
Proof.
  intros L NS Z. fold (strip l). rewrite well_formed_form.
  assert (S : forallb sf l = true).
  { apply forallb_forall. intros a Ha. specialize (NS a Ha). destruct a; try reflexivity. exfalso. apply NS. now exists p, q. }
  assert (C : compose eqb l = (l' <- gather eqb l ;; loop eqb l')) by (destruct l as [|? [|]]; cbn [length] in L; [lia|lia|reflexivity]).
  rewrite C. unfold gather. destruct (eqb (scalars l) r1) eqn:e1.
  - apply E in e1. cbn [rbind]. split.
    + intros [l' R]. split; [|now left]. rewrite <- strip_erase. destruct (form (strip (map erase l))) eqn:f; [reflexivity|].
      exfalso. now apply (loop_rejects (erase_plain l) (erase_sf S) f) in R.
    + intros [f _]. rewrite <- strip_erase in f. exists (norm (map erase l)). apply loop_accepts; [apply erase_plain|exact f].
  - assert (e0 : eqb (scalars l) r0 = false) by (destruct (eqb (scalars l) r0) eqn:e0; [apply E in e0; contradiction|reflexivity]).
    assert (H1 : scalars l <> r1) by (intros k; apply E in k; congruence).
    unfold homothety. rewrite e0, e1. cbn [rbind]. destruct (absorb (scalars l) (map erase l)) as [l1|] eqn:ea; cbn [rbind].
    + destruct (absorb_plain ea) as [p1 p2]. rewrite erase_plain in p1. rewrite strip_erase in p2.
      assert (X : exists A, In (Lin A true) l).
      { destruct (absorb_some (scalars l) (map erase l)) as [_ k]. destruct k as [A HA]; [now rewrite ea|]. exists A. now apply in_erase. }
      split.
      * intros [l' R]. split; [|now right]. rewrite <- p2. destruct (form (strip l1)) eqn:f; [reflexivity|].
        exfalso. refine (loop_rejects p1 _ f R). apply (absorb_sf (erase_sf S) ea).
      * intros [f _]. exists (norm l1). apply loop_accepts; [exact p1|now rewrite p2].
    + assert (X : forall A, ~ In (Lin A true) l).
      { intros A HA. destruct (absorb_some (scalars l) (map erase l)) as [k _]. apply k; [|exact ea]. exists A. now apply in_erase. }
      cbn [loop]. split.
      * intros [l' R]. destruct (form (strip (map erase l))) eqn:f.
        -- rewrite (loop_accepts (erase_plain l) f) in R. cbn [rbind] in R. rewrite strip_erase in f. split; [exact f|].
           intros [i [s es]]. exfalso. unfold norm in R. rewrite strip_erase, es in R. discriminate R.
        -- exfalso. pose proof (loop_rejects (erase_plain l) (erase_sf S) f) as G. destruct (loop eqb (map erase l)) as [l2|]; [now apply (G l2)|discriminate R].
      * intros [f W]. rewrite <- strip_erase in f. rewrite (loop_accepts (erase_plain l) f). cbn [rbind]. unfold norm. rewrite strip_erase in *.
        pose proof (strip_ns l) as N. destruct (strip l) as [|b s] eqn:es.
        -- destruct (map erase l); eexists; reflexivity.
        -- destruct b; try discriminate.
           ++ eexists. reflexivity.
           ++ exfalso. destruct W as [k|[A k]]; [now exists name, s|contradiction|now apply (X A)].
           ++ eexists. reflexivity.
Qed.

(** ** Forms that are always accepted *)
Definition lin (A : mx K n n * bool) : atom K n := Lin (fst A) (snd A).
Lemma scalars_lin ops (l : list (atom K n)) : scalars (map lin ops ++ l) = scalars l.
Proof. induction ops as [|A ops IH]; [reflexivity|exact IH]. Qed.
Lemma compose_plain (l : list (atom K n)) : forallb not_scalar l = true -> form l = true -> compose eqb l = Ok l.
Proof.
  intros N F. destruct l as [|a [|b l]]; [reflexivity|reflexivity|]. set (l0 := a :: b :: l) in *.
  assert (S : scalars l0 = r1 /\ map erase l0 = l0 /\ strip l0 = l0 /\ forallb plain l0 = true).
  { clear F. revert N. generalize l0. clear. induction l0 as [|a l IH]; [now repeat split|]. cbn [forallb]. intros N. apply andb_true_iff in N. destruct N as [Na N].
    destruct (IH N) as [s1 [s2 [s3 s4]]]. unfold strip in *. cbn [map filter forallb]. rewrite Na, s2, s3, s4. destruct a; try discriminate; cbn [scalars]; now repeat split. }
  destruct S as [s1 [s2 [s3 s4]]]. change (compose eqb l0) with (l' <- gather eqb l0 ;; loop eqb l'). unfold gather. rewrite s1, s2.
  replace (eqb r1 r1) with true by (symmetry; now apply E). cbn [rbind]. rewrite loop_accepts; [|exact s4|now rewrite s3].
  unfold norm. rewrite s3. reflexivity.
Qed.
Lemma form_chain (ops : list (mx K n n * bool)) i : forallb not_scalar (map lin ops ++ [Var i]) = true /\ tail_ok (map lin ops ++ [Var i]) = true.
Proof. induction ops as [|A ops [IH1 IH2]]; [now split|]. cbn [map app forallb tail_ok lin]. now split. Qed.
Lemma eval_chain (ops : list (mx K n n * bool)) i : eval eqb (chain ops (EVar i)) = Ok (Op (map lin ops ++ [Var i])).
Proof.
  induction ops as [|A ops IH]; [reflexivity|]. cbn [chain fold_right eval]. fold (chain ops (EVar i : expr K n)). rewrite IH. cbn [rbind].
  destruct (form_chain (A :: ops) i) as [N F]. apply tail_form in F. rewrite mul_kind. cbn [kind].
  assert (G : composition eqb ([Lin (fst A) (snd A)] ++ (map lin ops ++ [Var i])) = Ok (Op (map lin (A :: ops) ++ [Var i]))).
  { unfold composition. change ([Lin (fst A) (snd A)] ++ map lin ops ++ [Var i]) with (map lin (A :: ops) ++ [Var i]). now rewrite (compose_plain N F). }
  destruct ops as [|B ops]; [exact G|]. assert (k : kind (map lin (B :: ops) ++ [Var i]) = None) by (destruct ops; reflexivity). rewrite k. exact G.
Qed.
Lemma eval_row (ops : list (mx K n n * bool)) i : eval eqb (ET (chain ops (EVar i))) =
  Ok (@Op K n (VarT i :: rev (map (fun A => Lin (trmx (fst A)) (snd A)) ops))).
Proof.
  cbn [eval]. rewrite eval_chain. cbn [rbind transpose].
  assert (R : rmap (transpose1 eqb) (map lin ops ++ [Var i]) = Ok (map (fun A => Lin (trmx (fst A)) (snd A)) ops ++ [VarT i])).
  { induction ops as [|A ops IH]; [reflexivity|]. cbn [map app rmap lin transpose1 rbind]. now rewrite IH. }
  rewrite R. cbn [rbind]. rewrite rev_app_distr. cbn [rev app]. rewrite compose_plain; [reflexivity| |].
  - cbn [forallb not_scalar andb]. apply forallb_forall. intros a H. apply in_rev, in_map_iff in H. destruct H as [A [<- _]]. reflexivity.
  - cbn [form]. rewrite <- map_rev. clear R. induction (rev ops); [reflexivity|assumption].
Qed.
Lemma eval_quadratic (ops : list (mx K n n * bool)) i j : eval eqb (EMul (ET (EVar i)) (chain ops (EVar j))) = Ok (Op (VarT i :: map lin ops ++ [Var j])).
Proof.
  cbn [eval rbind transpose rmap transpose1 rev app compose]. rewrite eval_chain. cbn [rbind]. rewrite mul_kind. cbn [kind].
  destruct (form_chain ops j) as [N F].
  assert (G : composition eqb (VarT i :: map lin ops ++ [Var j]) = Ok (Op (VarT i :: map lin ops ++ [Var j]))).
  { unfold composition. rewrite compose_plain; [reflexivity|exact N|exact F]. }
  destruct ops as [|A [|B ops]]; exact G.
Qed.

(** ** What is rejected *)
Section Rejected.
Context (a : K) (a0 : a <> r0) (a1 : a <> r1).
Lemma hom_a : homothety (n := n) eqb a = Ok (Hom a).
Proof.
  unfold homothety. destruct (eqb a r0) eqn:e; [apply E in e; contradiction|]. destruct (eqb a r1) eqn:e'; [apply E in e'; contradiction|]. reflexivity.
Qed.
Lemma compose_row_scalar (l : list (atom K n)) : 2 <= length l -> scalars l = a -> forallb sf l = true -> absorb a (map erase l) = None ->
  form (strip l) = true -> starts_with_row (strip l) -> compose (n := n) eqb l = Raise ValueError.
Proof.
  intros L S F Ab Fo [i [s es]]. assert (C : compose eqb l = (l' <- gather eqb l ;; loop eqb l')) by (destruct l as [|? [|]]; cbn [length] in L; [lia|lia|reflexivity]).
  rewrite C. unfold gather. rewrite S, hom_a, Ab. destruct (eqb a r1) eqn:e; [apply E in e; contradiction|]. cbn [rbind loop].
  rewrite loop_accepts; [|apply erase_plain|now rewrite strip_erase]. cbn [rbind]. unfold norm. rewrite strip_erase, es. reflexivity.
Qed.
Ltac row := unfold composition; rewrite compose_row_scalar; [reflexivity|cbn [length]; lia|cbn [scalars]; ring|reflexivity|reflexivity|reflexivity|eexists; eexists; reflexivity].
Lemma scalar_row i : eval (n := n) eqb (EMul (ENum a) (ET (EVar i))) = Raise ValueError.
Proof. cbn [eval rbind transpose rmap transpose1 rev app compose mul vart_rmul]. rewrite hom_a. cbn [rbind]. row. Qed.
Lemma row_scalar i : eval (n := n) eqb (EMul (ET (EVar i)) (ENum a)) = Raise ValueError.
Proof. cbn [eval rbind transpose rmap transpose1 rev app compose mul vart_mul]. rewrite hom_a. cbn [rbind]. row. Qed.
Lemma column_scalar i : eval (n := n) eqb (EMul (ENum a) (EVar i)) = Ok (Op [Hom a; Var i]).
Proof.
  cbn [eval rbind mul var_rmul]. rewrite hom_a. cbn [rbind]. unfold composition, compose, gather. cbn [scalars map erase absorb].
  replace (rmul a r1) with a by ring. rewrite hom_a. destruct (eqb a r1) eqn:e; [apply E in e; contradiction|]. reflexivity.
Qed.
Lemma scaled_column_transpose i : eval (n := n) eqb (ET (EMul (ENum a) (EVar i))) = Raise ValueError.
Proof.
  change (eval (n := n) eqb (ET (EMul (ENum a) (EVar i)))) with (o <- eval (n := n) eqb (EMul (ENum a) (EVar i)) ;; transpose eqb o).
  rewrite column_scalar. cbn [rbind transpose rmap transpose1 rev app]. row.
Qed.
Lemma scaled_dot i j : eval (n := n) eqb (EMul (ENum a) (EMul (ET (EVar i)) (EVar j))) = Raise ValueError.
Proof.
  change (EMul (ET (EVar i)) (EVar j)) with (EMul (ET (EVar i)) (chain (K := K) (n := n) [] (EVar j))).
  change (eval eqb (EMul (ENum a) (EMul (ET (EVar i)) (chain (K := K) (n := n) [] (EVar j))))) with
    (o <- eval eqb (EMul (ET (EVar i)) (chain (K := K) (n := n) [] (EVar j))) ;; mul eqb (Num a) o).
  rewrite eval_quadratic. cbn [rbind map app mul]. rewrite hom_a. cbn [rbind]. row.
Qed.
Lemma row_scaled_operator i (A : mx K n n) : eval eqb (EMul (ET (EVar i)) (EMul (ENum a) (ELin A false))) = Raise ValueError.
Proof.
  cbn [eval rbind transpose rmap transpose1 rev app compose mul]. rewrite hom_a. cbn [rbind]. unfold composition at 1, compose, gather. cbn [scalars map erase absorb].
  replace (rmul a r1) with a by ring. rewrite hom_a. destruct (eqb a r1) eqn:e; [apply E in e; contradiction|]. cbn [rbind loop push pair_rule vart_mul is_homothety app].
  row.
Qed.
End Rejected.
Lemma minus_row i : (ropp r1 : K) <> r0 -> (ropp r1 : K) <> r1 -> eval (n := n) eqb (ENeg (ET (EVar i))) = Raise ValueError.
Proof.
  intros m0 m1. cbn [eval rbind transpose rmap transpose1 rev app compose neg]. rewrite (hom_a m0 m1). cbn [rbind mul vart_rmul is_homothety]. unfold composition.
  rewrite (compose_row_scalar m0 m1); [reflexivity|cbn [length]; lia|cbn [scalars]; ring|reflexivity|reflexivity|reflexivity|eexists; eexists; reflexivity].
Qed.
Lemma row_minus_row i j : (ropp r1 : K) <> r0 -> (ropp r1 : K) <> r1 -> eval (n := n) eqb (ESub (ET (EVar i)) (ET (EVar j))) = Raise ValueError.
Proof.
  intros m0 m1. pose proof (minus_row j m0 m1) as M. cbn [eval rbind transpose rmap transpose1 rev app compose] in *. unfold sub. now rewrite M.
Qed.
Lemma outer_rejected i j : eval (n := n) eqb (EMul (EVar i) (ET (EVar j))) = Raise TypeError.
Proof.
  cbn [eval rbind transpose rmap transpose1 rev app compose mul var_mul]. unfold composition, compose, gather. cbn [scalars map erase].
  replace (eqb r1 r1) with true by (symmetry; now apply E). reflexivity.
Qed.
Lemma outer_hadamard i j (A : mx K n n) t : eval eqb (EMul (EVar i) (EMul (ET (EVar j)) (ELin A t))) = Ok NonLinear.
Proof.
  cbn [eval rbind transpose rmap transpose1 rev app compose mul vart_mul is_homothety]. unfold composition.
  rewrite compose_plain; [reflexivity|reflexivity|reflexivity].
Qed.
Lemma sum_times_operator i j (A : mx K n n) t : eval eqb (EMul (EAdd (EVar i) (EVar j)) (ELin A t)) = Ok (Op [Sum [Var i] [Var j]; Lin A t]).
Proof.
  cbn [eval rbind add as_operands is_homothety andb mul app]. unfold composition, compose, gather. cbn [scalars map erase].
  replace (eqb r1 r1) with true by (symmetry; now apply E). reflexivity.
Qed.
End Accepted.
(** For the examples: integers *)
Definition Zeqb (a b : Zring) : bool := Z.eqb a b.
Lemma Zeqb_spec a b : Zeqb a b = true <-> a = b. Proof. apply Z.eqb_eq. Qed.
Definition ex_A : mx Zring 2 2 := @build Zring 2 2 (fun i j => Z.of_nat (2 * i + j + 1)).
Definition ex_x (k : nat) : mx Zring 2 1 := @build Zring 2 1 (fun i _ => Z.of_nat (i + k + 1)).
Definition ex_form (t : bool) : expr Zring 2 := EMul (ET (EMul (ELin ex_A t) (EVar 0))) (EMul (ENum (3%Z : Zring)) (EMul (ELin ex_A t) (EVar 1))).
