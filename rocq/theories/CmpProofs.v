From Coq Require Import QArith Qabs Qminmax String.
From Verif Require Import Base SeqSpec BlockModel BlockSpec BlockProofs DiagModel DiagSpec DiagProofs DenseSpec DenseProofs CmpModel CmpSpec.
Open Scope nat_scope.
Open Scope list_scope.

(** ** Elements *)
Lemma fle_fin p q : fle (Fin p) (Fin q) = true <-> (p <= q)%Q.
Proof. apply Qle_bool_iff. Qed.
Lemma fmin_fin p q : fmin (Fin p) (Fin q) = Fin (if Qle_bool p q then p else q).
Proof. unfold fmin. cbn. destruct (Qle_bool p q); reflexivity. Qed.
Lemma qmin_case p q : ((if Qle_bool p q then p else q) == Qmin p q)%Q.
Proof.
  destruct (Qle_bool p q) eqn:E.
  - apply Qle_bool_iff in E. rewrite Q.min_l by exact E. reflexivity.
  - assert (q <= p)%Q as H. { destruct (Qlt_le_dec q p) as [H|H]; [apply Qlt_le_weak; exact H|]. apply Qle_bool_iff in H. congruence. }
    rewrite Q.min_r by exact H. reflexivity.
Qed.
Lemma same_element_fin e1 e2 p q : same_element e1 e2 (Fin p) (Fin q) = true <-> near e1 e2 (Fin p) (Fin q).
Proof.
  unfold same_element, near. cbn [fabs fsub fadd fopp isnan andb]. rewrite fmin_fin. cbn [fscale fadd feq]. rewrite orb_false_r, orb_true_iff, fle_fin, Qeq_bool_iff.
  rewrite qmin_case. reflexivity.
Qed.
Lemma same_element_ok e1 e2 a d : ((0 < e1)%Q -> ~ opposite a d) -> (same_element e1 e2 a d = true <-> near e1 e2 a d).
Proof.
  intros H. destruct a as [p|s|], d as [q|t|].
  1: apply same_element_fin.
  all: unfold same_element; cbn; try destruct s; try destruct t; cbn in *; try tauto; try (split; [discriminate|intros []]; fail).
  all: try (split; intros; (reflexivity || discriminate); fail).
  all: split; [|discriminate]; destruct (e1 ?= 0)%Q eqn:E; cbn; try discriminate; exfalso; apply H; [apply Qgt_alt in E; exact E|discriminate].
Qed.
Lemma bool_iff (a b : bool) : (a = true <-> b = true) -> a = b.
Proof. destruct a, b; intros [H H']; auto; symmetry; auto. Qed.
Lemma near_sym e1 e2 a d : near e1 e2 a d -> near e1 e2 d a.
Proof.
  destruct a as [p|s|], d as [q|t|]; cbn [near]; auto. intros [H|H]; [left|right; symmetry; exact H]. rewrite Qabs_Qminus, Q.min_comm. exact H.
Qed.
Lemma same_element_sym e1 e2 a d : same_element e1 e2 a d = same_element e1 e2 d a.
Proof.
  destruct a as [p|s|], d as [q|t|].
  1: apply bool_iff; rewrite !same_element_fin; split; apply near_sym.
  all: unfold same_element; cbn; try destruct s; try destruct t; cbn; reflexivity.
Qed.
Lemma same_element_mono e1 e2 f1 f2 a d : (e1 <= f1)%Q -> (e2 <= f2)%Q -> same_element e1 e2 a d = true -> same_element f1 f2 a d = true.
Proof.
  intros H1 H2. destruct a as [p|s|], d as [q|t|].
  1: rewrite !same_element_fin; cbn [near]; intros [H|H]; [left|right; exact H].
  1: { eapply Qle_trans; [exact H|]. apply Qplus_le_compat; [|exact H2]. apply Qmult_le_compat_r; [exact H1|]. apply Q.min_glb; apply Qabs_nonneg. }
  all: unfold same_element; cbn; try destruct s; try destruct t; cbn; try discriminate; auto.
  all: destruct (e1 ?= 0)%Q eqn:E; cbn; try discriminate; intros _; apply Qgt_alt in E; assert (0 < f1)%Q as F by (eapply Qlt_le_trans; eauto);
    apply Qgt_alt in F; rewrite F; reflexivity.
Qed.

(** ** Arrays *)
Definition verdict {A B} (f : A -> B -> bool) (x : array A) (y : array B) : result unit := same <- ufunc2 f x y ;; check (all_true same).
Lemma all_true_ok x : all_true x = true <-> forall idx, inside (ashape x) idx -> aval x idx = true.
Proof. unfold all_true. rewrite forallb_forall. split; intros H idx Hi; apply H; apply in_indices; exact Hi. Qed.
Lemma check_ok b : check b = Ok tt <-> b = true.
Proof. destruct b; cbn; split; auto; discriminate. Qed.
Lemma verdict_ok {A B} (f : A -> B -> bool) x y : verdict f x y = Ok tt <-> stretched_pairwise (fun a b => f a b = true) x y.
Proof.
  unfold verdict, ufunc2, stretched_pairwise. split.
  - intros H. destruct (bc (rev (ashape x)) (rev (ashape y))) as [s|e] eqn:E; [|discriminate]. cbn [rbind] in H. rewrite check_ok, all_true_ok in H. cbn [ashape aval] in H.
    exists (rev s). split; [apply bc_common; rewrite rev_involutive; exact E|]. intros idx Hi. specialize (H idx Hi).
    rewrite !(left_coefficient Leftward) in H by discriminate. exact H.
  - intros (s & C & H). apply bc_common in C. rewrite C. cbn [rbind]. rewrite check_ok, all_true_ok. cbn [ashape aval]. intros idx Hi. rewrite rev_involutive in Hi.
    rewrite !(left_coefficient Leftward) by discriminate. apply H. exact Hi.
Qed.
Lemma common_refl s : common s s s.
Proof. apply bc_common. apply bc_refl. Qed.
Lemma facing_same {A} (x : array A) idx : inside (ashape x) idx -> aval x (facing Leftward (ashape x) idx) = aval x idx.
Proof. intros H. rewrite <- (stretched_same x idx H). rewrite (left_coefficient Leftward) by discriminate. reflexivity. Qed.
Lemma stretched_pairwise_same {A B} (R : A -> B -> Prop) x y : ashape x = ashape y -> (stretched_pairwise R x y <-> pairwise R x y).
Proof.
  intros E. unfold stretched_pairwise, pairwise. split.
  - intros (s & C & H). split; [exact E|]. rewrite E in C. pose proof (proj2 (bc_common _ _ _) C) as C1. rewrite bc_refl in C1. injection C1 as C1. apply (f_equal (@rev nat)) in C1. rewrite !rev_involutive in C1. subst s.
    intros idx Hi. rewrite <- E in H. specialize (H idx Hi). rewrite facing_same in H by exact Hi. rewrite E in H, Hi. rewrite facing_same in H by exact Hi. exact H.
  - intros [_ H]. exists (ashape x). rewrite <- E. split; [apply common_refl|]. intros idx Hi. rewrite facing_same by exact Hi. rewrite E. rewrite facing_same by (rewrite <- E; exact Hi). apply H. exact Hi.
Qed.
Lemma verdict_total {A B} (f : A -> B -> bool) x y : verdict f x y = Ok tt \/ verdict f x y = Raise AssertionError /\ compatible [ashape x; ashape y] \/ verdict f x y = Raise ValueError /\ ~ compatible [ashape x; ashape y].
Proof.
  unfold verdict, ufunc2. destruct (bc (rev (ashape x)) (rev (ashape y))) as [s|e] eqn:E; cbn [rbind].
  - unfold check. destruct all_true; [auto|]. right. left. split; [reflexivity|]. rewrite <- (rev_involutive s) in E. apply bc_common in E. apply E.
  - right. right. rewrite (bc_error _ _ _ E). split; [reflexivity|]. intros C. destruct (bc_total (rev (ashape x)) (rev (ashape y))) as [w W]; [|congruence].
    intros k. apply (C (ashape x) (ashape y) k); [left|right; left]; reflexivity.
Qed.
Lemma compatible_refl s : compatible [s; s].
Proof. intros u v k [<-|[<-|[]]] [<-|[<-|[]]]; auto. Qed.
Lemma same_shape_ok {A B} (x : array A) (y : array B) : same_shape x y = true <-> ashape x = ashape y.
Proof. unfold same_shape. destruct list_eq_dec; split; auto; discriminate. Qed.
Lemma pairwise_iff {A B} (R S : A -> B -> Prop) x y : (forall idx, inside (ashape x) idx -> inside (ashape y) idx -> R (aval x idx) (aval y idx) <-> S (aval x idx) (aval y idx)) ->
  (pairwise R x y <-> pairwise S x y).
Proof. intros H. unfold pairwise. split; intros [E F]; (split; [exact E|]); intros idx Hi; apply H; auto; rewrite <- E; exact Hi. Qed.

(** ** assert_same *)
Definition test (x y : narray) (atol rtol : Q) : fnum -> fnum -> bool :=
  match n_dtype x, n_dtype y with
  | Float p, Float q => same_element (eps (smallest p q) * rtol) (eps (smallest p q) * atol)
  | Float p, _ | _, Float p => same_element (eps p * rtol) (eps p * atol)
  | _, _ => feq
  end.
Lemma assert_same_eq x y atol rtol b : numeric x -> numeric y ->
  assert_same x y atol rtol b = if negb b && negb (same_shape (n_arr x) (n_arr y)) then Raise AssertionError else verdict (test x y atol rtol) (n_arr x) (n_arr y).
Proof.
  unfold numeric, assert_same, test, verdict. intros Hx Hy. destruct (n_dtype x), (n_dtype y); try congruence; destruct (negb b && negb (same_shape (n_arr x) (n_arr y))); reflexivity.
Qed.
Lemma eps_smallest p q : eps (smallest p q) = Qmax (eps p) (eps q).
Proof. destruct p, q; reflexivity. Qed.
Lemma eps_pos p : (0 < eps p)%Q.
Proof. destruct p; reflexivity. Qed.
Lemma feq_near (p q : Q) : feq (Fin p) (Fin q) = true <-> near 0 0 (Fin p) (Fin q).
Proof.
  cbn [near feq]. rewrite Qeq_bool_iff. split; [auto|]. intros [H|H]; [|exact H]. rewrite Qmult_0_l, Qplus_0_r in H.
  assert (p - q == 0)%Q as E. { destruct (Qlt_le_dec 0 (Qabs (p - q))) as [G|G]; [exfalso; apply (Qlt_irrefl 0); eapply Qlt_le_trans; eauto|].
    apply Qabs_Qle_condition in H as [H1 H2]. apply Qle_antisym; [exact H2|exact H1]. }
  rewrite <- (Qplus_0_r q), <- E. ring.
Qed.
Lemma near_ext e1 e2 f1 f2 a d : (e1 == f1)%Q -> (e2 == f2)%Q -> near e1 e2 a d -> near f1 f2 a d.
Proof. intros H1 H2. destruct a, d; cbn [near]; auto. rewrite H1, H2. auto. Qed.
(** What the test of two facing elements decides *)
Lemma test_ok x y u atol rtol a d : numeric x -> numeric y -> unit_of x y u -> (n_dtype x = Integer -> exists z, a = Fin (inject_Z z)) ->
  (n_dtype y = Integer -> exists z, d = Fin (inject_Z z)) -> ((0 < rtol)%Q -> ~ opposite a d) -> (test x y atol rtol a d = true <-> near (u * rtol) (u * atol) a d).
Proof.
  unfold numeric, unit_of, test. intros Hx Hy U Ia Id O.
  assert (forall p, (0 < eps p * rtol)%Q -> ~ opposite a d) as O'.
  { intros p P. apply O. destruct (Qlt_le_dec 0 rtol) as [G|G]; [exact G|]. exfalso. apply (Qlt_irrefl 0). eapply Qlt_le_trans; [exact P|].
    rewrite <- (Qmult_0_r (eps p)). apply Qmult_le_l; [apply eps_pos|exact G]. }
  destruct (n_dtype x) as [|p|], (n_dtype y) as [|q|]; try congruence; subst u.
  - destruct (Ia eq_refl) as [z ->], (Id eq_refl) as [t ->]. rewrite feq_near. split; apply near_ext; try ring; rewrite Qmult_0_l; reflexivity.
  - apply same_element_ok, O'.
  - apply same_element_ok, O'.
  - rewrite <- eps_smallest. apply same_element_ok, O'.
Qed.
Lemma assert_same_ok x y u atol rtol : numeric x -> numeric y -> well_typed x -> well_typed y -> unit_of x y u ->
  ((0 < rtol)%Q -> forall idx, inside (ashape (n_arr x)) idx -> inside (ashape (n_arr y)) idx -> ~ opposite (aval (n_arr x) idx) (aval (n_arr y) idx)) ->
  (assert_same x y atol rtol false = Ok tt <-> pairwise (near (u * rtol) (u * atol)) (n_arr x) (n_arr y)) /\
  (assert_same x y atol rtol false = Ok tt \/ assert_same x y atol rtol false = Raise AssertionError).
Proof.
  intros Hx Hy Wx Wy U O. rewrite assert_same_eq by assumption. cbn [negb andb]. destruct (same_shape (n_arr x) (n_arr y)) eqn:E; cbn [negb].
  - apply same_shape_ok in E. split.
    + rewrite verdict_ok, stretched_pairwise_same by exact E. apply pairwise_iff. intros idx Hi Hj. apply test_ok; auto.
    + destruct (verdict_total (test x y atol rtol) (n_arr x) (n_arr y)) as [H|[[H _]|[_ H]]]; auto. exfalso. apply H. rewrite E. apply compatible_refl.
  - split; [|auto]. split; [discriminate|]. intros [S _]. apply same_shape_ok in S. congruence.
Qed.
(** The elements that face each other in a stretched comparison are elements of the arrays. *)
Lemma facing_inside a b s idx : common a b s -> inside s idx -> inside a (facing Leftward a idx).
Proof.
  intros C H. pose proof (proj2 (bc_common _ _ _) C) as E. clear C. unfold facing. rewrite <- (rev_involutive a) at 1. apply inside_rev.
  apply inside_rev in H. remember (rev idx) as i. clear Heqi. revert H E. generalize (rev a), (rev b), (rev s), i. clear.
  induction l as [|n a IH]; intros b s i H E; [constructor|]. destruct b as [|m b]; cbn [bc] in E.
  - injection E as <-. rewrite <- clip_project, clip_inside by exact H. exact H.
  - destruct (if Nat.eqb n m then Ok n else if Nat.eqb n 1 then Ok m else if Nat.eqb m 1 then Ok n else Raise ValueError) as [d|] eqn:D; [|discriminate]. cbn [rbind] in E.
    destruct (bc a b) as [r|] eqn:F; [|discriminate]. cbn [rbind] in E. injection E as <-. inversion H as [|? j ? i' Hj Hi]; subst. cbn [project]. constructor; [|eapply IH; eauto].
    destruct (Nat.eqb_spec n m); [injection D as <-; destruct (Nat.eqb_spec n 1); lia|]. destruct (Nat.eqb_spec n 1); [lia|]. destruct (Nat.eqb_spec m 1); [injection D as <-; lia|discriminate].
Qed.
Lemma stretched_iff {A B} (R S : A -> B -> Prop) x y : (forall i j, inside (ashape x) i -> inside (ashape y) j -> R (aval x i) (aval y j) <-> S (aval x i) (aval y j)) ->
  (stretched_pairwise R x y <-> stretched_pairwise S x y).
Proof.
  intros H. unfold stretched_pairwise. split; intros (s & C & F); exists s; (split; [exact C|]); intros idx Hi;
    (apply H; [eapply facing_inside; eauto|eapply facing_inside; [apply common_sym; exact C|exact Hi]|apply F; exact Hi]).
Qed.
Lemma assert_same_broadcast x y u atol rtol : numeric x -> numeric y -> well_typed x -> well_typed y -> unit_of x y u ->
  ((0 < rtol)%Q -> forall i j, inside (ashape (n_arr x)) i -> inside (ashape (n_arr y)) j -> ~ opposite (aval (n_arr x) i) (aval (n_arr y) j)) ->
  (assert_same x y atol rtol true = Ok tt <-> stretched_pairwise (near (u * rtol) (u * atol)) (n_arr x) (n_arr y)).
Proof.
  intros Hx Hy Wx Wy U O. rewrite assert_same_eq by assumption. cbn [negb andb]. rewrite verdict_ok. apply stretched_iff. intros i j Hi Hj. apply test_ok; auto.
Qed.
Lemma assert_same_errors x y atol rtol b e : assert_same x y atol rtol b = Raise e ->
  (e = TypeError /\ (n_dtype x = NotNumeric \/ n_dtype y = NotNumeric)) \/ e = AssertionError \/
  (e = ValueError /\ b = true /\ ~ compatible [ashape (n_arr x); ashape (n_arr y)]).
Proof.
  intros H. assert (numeric x /\ numeric y \/ (n_dtype x = NotNumeric \/ n_dtype y = NotNumeric)) as [[Hx Hy]|N].
  { unfold numeric. destruct (n_dtype x), (n_dtype y); auto; left; split; discriminate. }
  - rewrite assert_same_eq in H by assumption. destruct (negb b && negb (same_shape (n_arr x) (n_arr y))) eqn:E; [injection H as <-; auto|].
    destruct (verdict_total (test x y atol rtol) (n_arr x) (n_arr y)) as [G|[[G _]|[G C]]]; rewrite G in H; [discriminate|injection H as <-; auto|injection H as <-].
    right. right. split; [reflexivity|]. split; [|exact C]. destruct b; [reflexivity|]. cbn in E. apply negb_false_iff, same_shape_ok in E. exfalso. apply C. rewrite E. apply compatible_refl.
  - left. split; [|exact N]. unfold assert_same in H. destruct N as [N|N]; rewrite N in H; [|destruct (n_dtype x)]; injection H as <-; reflexivity.
Qed.
Lemma feq_sym a b : feq a b = feq b a.
Proof. destruct a as [p|s|], b as [q|t|]; try reflexivity; [|destruct s, t; reflexivity]. apply bool_iff. cbn [feq]. rewrite !Qeq_bool_iff. split; intros ->; reflexivity. Qed.
Lemma smallest_sym p q : smallest p q = smallest q p.
Proof. destruct p, q; reflexivity. Qed.
Lemma test_sym x y atol rtol a d : test x y atol rtol a d = test y x atol rtol d a.
Proof. unfold test. destruct (n_dtype x), (n_dtype y); try apply feq_sym; try apply same_element_sym. rewrite smallest_sym. apply same_element_sym. Qed.
Lemma bc_sym a : forall b, bc a b = bc b a.
Proof.
  induction a as [|n a IH]; intros [|m b]; try reflexivity. cbn [bc]. rewrite (IH b).
  destruct (Nat.eqb_spec n m) as [->|N]; [rewrite Nat.eqb_refl; reflexivity|]. destruct (Nat.eqb_spec m n); [congruence|].
  destruct (Nat.eqb_spec n 1), (Nat.eqb_spec m 1); try reflexivity. congruence.
Qed.
Lemma all_true_ext x y : ashape x = ashape y -> (forall idx, aval x idx = aval y idx) -> all_true x = all_true y.
Proof. intros E H. apply bool_iff. rewrite !all_true_ok, E. split; intros F idx Hi; [rewrite <- H|rewrite H]; auto. Qed.
Lemma verdict_sym {A B} (f : A -> B -> bool) g x y : (forall a b, f a b = g b a) -> verdict f x y = verdict g y x.
Proof.
  intros H. unfold verdict, ufunc2. rewrite bc_sym. destruct (bc (rev (ashape y)) (rev (ashape x))) as [s|e]; [|reflexivity]. cbn [rbind]. f_equal. apply all_true_ext; [reflexivity|]. intros idx. apply H.
Qed.
Lemma assert_same_sym x y atol rtol b : assert_same x y atol rtol b = assert_same y x atol rtol b.
Proof.
  assert (numeric x /\ numeric y \/ (n_dtype x = NotNumeric \/ n_dtype y = NotNumeric)) as [[Hx Hy]|N].
  { unfold numeric. destruct (n_dtype x), (n_dtype y); auto; left; split; discriminate. }
  - rewrite !assert_same_eq by assumption. rewrite (verdict_sym _ (test y x atol rtol)) by apply test_sym.
    assert (same_shape (n_arr x) (n_arr y) = same_shape (n_arr y) (n_arr x)) as -> by (apply bool_iff; rewrite !same_shape_ok; split; auto). reflexivity.
  - unfold assert_same. destruct N as [N|N]; rewrite N; [destruct (n_dtype y)|destruct (n_dtype x)]; reflexivity.
Qed.
Lemma verdict_mono {A B} (f g : A -> B -> bool) x y : (forall a b, f a b = true -> g a b = true) -> verdict f x y = Ok tt -> verdict g x y = Ok tt.
Proof. intros H. rewrite !verdict_ok. intros (s & C & F). exists s. split; [exact C|]. intros idx Hi. apply H, F, Hi. Qed.
Lemma assert_same_mono x y atol rtol atol' rtol' b : (atol <= atol')%Q -> (rtol <= rtol')%Q -> assert_same x y atol rtol b = Ok tt -> assert_same x y atol' rtol' b = Ok tt.
Proof.
  intros Ha Hr H. assert (numeric x /\ numeric y) as [Hx Hy].
  { unfold numeric. unfold assert_same in H. destruct (n_dtype x), (n_dtype y); try discriminate; split; discriminate. }
  rewrite assert_same_eq in * by assumption. destruct (negb b && negb (same_shape (n_arr x) (n_arr y))); [discriminate|]. revert H. apply verdict_mono. intros a d. unfold test.
  assert (forall p, eps p * rtol <= eps p * rtol' /\ eps p * atol <= eps p * atol')%Q as M by (intros p; split; apply Qmult_le_l; auto using eps_pos).
  destruct (n_dtype x), (n_dtype y); auto; apply same_element_mono; apply M.
Qed.

(** ** assert_eq *)
Definition leaf (v : pyval) : Prop := match v with VList _ | VTuple _ | VDict _ => False | _ => True end.
Section Induction.
Variable P : pyval -> Prop.
Hypothesis Hleaf : forall v, leaf v -> P v.
Hypothesis Hlist : forall l, Forall P l -> P (VList l).
Hypothesis Htuple : forall l, Forall P l -> P (VTuple l).
Hypothesis Hdict : forall l, Forall (fun kv => P (snd kv)) l -> P (VDict l).
Fixpoint pyval_ind2 (v : pyval) : P v :=
  let fix each (l : list pyval) : Forall P l := match l with [] => Forall_nil _ | v :: l' => Forall_cons _ (pyval_ind2 v) (each l') end in
  match v as v return P v with
  | VList l => Hlist l (each l)
  | VTuple l => Htuple l (each l)
  | VDict l => Hdict l ((fix go (l : list (string * pyval)) : Forall (fun kv => P (snd kv)) l :=
      match l with [] => Forall_nil _ | kv :: l' => Forall_cons _ (pyval_ind2 (snd kv)) (go l') end) l)
  | VNone => Hleaf VNone I | VNum x => Hleaf (VNum x) I | VStr s => Hleaf (VStr s) I | VSet l => Hleaf (VSet l) I | VFrozen l => Hleaf (VFrozen l) I
  | VArr a => Hleaf (VArr a) I | VObj i => Hleaf (VObj i) I
  end.
End Induction.

(** Arrays *)
Definition arrays_of : list pyval -> option (list (array fnum)) :=
  fix go (l : list pyval) := match l with [] => Some [] | v :: l' => match array_of v, go l' with Some a, Some r => Some (a :: r) | _, _ => None end end.
Lemma array_of_seq v l : sequence v l -> array_of v = match arrays_of l with Some r => stack r | None => None end.
Proof. intros [->| ->]; reflexivity. Qed.
Lemma arrays_of_cons v l : arrays_of (v :: l) = match array_of v, arrays_of l with Some a, Some r => Some (a :: r) | _, _ => None end.
Proof. reflexivity. Qed.
Lemma arrays_of_ok l : forall r, arrays_of l = Some r -> Forall2 (fun v a => array_of v = Some a) l r.
Proof.
  induction l as [|v l IH]; intros r H; [injection H as <-; constructor|]. rewrite arrays_of_cons in H. destruct (array_of v) eqn:E; [|discriminate]. destruct (arrays_of l) eqn:F; [|discriminate].
  injection H as <-. constructor; auto.
Qed.
Lemma arrays_of_total l r : Forall2 (fun v a => array_of v = Some a) l r -> arrays_of l = Some r.
Proof. intros H. induction H as [|v a l r E H IH]; [reflexivity|]. rewrite arrays_of_cons, E, IH. reflexivity. Qed.
Lemma shaped_seq v l s : sequence v l -> Forall (fun w => shaped w s) l -> l <> [] -> shaped v (List.length l :: s).
Proof. intros [->| ->]; constructor; auto. Qed.
Lemma found_seq v l i w idx x : sequence v l -> nth_error l i = Some w -> found w idx x -> found v (i :: idx) x.
Proof. intros [->| ->]; econstructor; eauto. Qed.
Lemma forall2_nth {A B} (R : A -> B -> Prop) l m : Forall2 R l m -> forall i b, nth_error m i = Some b -> exists a, nth_error l i = Some a /\ R a b.
Proof. intros H. induction H as [|a b l m E H IH]; intros [|i] c N; try discriminate; cbn in *; [injection N as <-; eauto|auto]. Qed.
Lemma array_of_seq_ok v l : sequence v l ->
  Forall (fun w => forall a, array_of w = Some a -> shaped w (ashape a) /\ forall idx, inside (ashape a) idx -> found w idx (aval a idx)) l ->
  forall a, array_of v = Some a -> shaped v (ashape a) /\ forall idx, inside (ashape a) idx -> found v idx (aval a idx).
Proof.
  intros S IH a H. rewrite (array_of_seq v l S) in H. destruct (arrays_of l) as [r|] eqn:E; [|discriminate]. apply arrays_of_ok in E.
  destruct r as [|x r].
  - injection H as <-. inversion E; subst. cbn [ashape]. split; [destruct S as [->| ->]; [apply shaped_nil|apply shaped_unit]|]. intros idx Hi. inversion Hi; subst. lia.
  - cbn [stack] in H. destruct (forallb (same_shape x) r) eqn:F; [|discriminate]. injection H as <-. cbn [ashape]. rewrite forallb_forall in F.
    assert (forall y, In y (x :: r) -> ashape y = ashape x) as Same. { intros y [<-|Hy]; [reflexivity|]. symmetry. apply same_shape_ok, F, Hy. }
    assert (Forall (fun w => shaped w (ashape x)) l) as Sh.
    { apply Forall_forall. intros w Hw. apply In_nth_error in Hw as [i Hi]. assert (exists y, nth_error (x :: r) i = Some y) as [y Hy].
      { destruct (nth_error (x :: r) i) eqn:N; [eauto|]. apply nth_error_None in N. rewrite <- (Forall2_length _ _ _ E) in N. apply nth_error_None in N. congruence. }
      destruct (forall2_nth _ _ _ E i y Hy) as (w' & Hw' & A). rewrite Hi in Hw'. injection Hw' as <-. rewrite <- (Same y) by (eapply nth_error_In; eauto).
      rewrite Forall_forall in IH. apply (IH w); [eapply nth_error_In; eauto|exact A]. }
    split; [change (shaped v (List.length (x :: r) :: ashape x)); rewrite <- (Forall2_length _ _ _ E); apply shaped_seq; auto; intros ->; inversion E|].
    intros idx Hi. inversion Hi as [|? i ? idx' Hlt Hin]; subst. change (found v (i :: idx') (aval (nth i (x :: r) x) idx')).
    destruct (nth_error (x :: r) i) as [y|] eqn:N; [|apply nth_error_None in N; cbn [List.length] in *; lia].
    destruct (forall2_nth _ _ _ E i y N) as (w & Hw & A). rewrite (nth_error_nth _ _ x N). eapply found_seq; eauto. rewrite Forall_forall in IH. apply (IH w); [eapply nth_error_In; eauto|exact A|].
    rewrite (Same y) by (eapply nth_error_In; eauto). exact Hin.
Qed.
Lemma array_of_ok v : forall a, array_of v = Some a -> shaped v (ashape a) /\ forall idx, inside (ashape a) idx -> found v idx (aval a idx).
Proof.
  induction v as [v L|l IH|l IH|l IH] using pyval_ind2.
  - intros a H. destruct v; try discriminate; try contradiction; injection H as <-.
    + split; [constructor|]. intros idx Hi. inversion Hi. constructor.
    + split; [constructor|]. intros idx Hi. constructor.
  - apply (array_of_seq_ok _ l); [left; reflexivity|exact IH].
  - apply (array_of_seq_ok _ l); [right; reflexivity|exact IH].
  - discriminate.
Qed.
Lemma stack_total l s : Forall (fun a => ashape a = s) l -> l <> [] -> exists a, stack l = Some a /\ ashape a = List.length l :: s.
Proof.
  intros H N. destruct l as [|x l]; [congruence|]. inversion H; subst. cbn [stack]. assert (forallb (same_shape x) l = true) as ->.
  { apply forallb_forall. intros y Hy. apply same_shape_ok. rewrite Forall_forall in *. symmetry. auto. }
  eexists. split; reflexivity.
Qed.
Lemma array_of_total v : forall s, shaped v s -> exists a, array_of v = Some a /\ ashape a = s.
Proof.
  assert (forall w l s, sequence w l -> Forall (fun v => forall s, shaped v s -> exists a, array_of v = Some a /\ ashape a = s) l -> Forall (fun v => shaped v s) l -> l <> [] ->
    exists a, array_of w = Some a /\ ashape a = List.length l :: s) as Seq.
  { intros w l s S IH F N. assert (exists r, Forall2 (fun v a => array_of v = Some a) l r /\ Forall (fun a => ashape a = s) r) as (r & R & A).
    { clear S N. induction IH as [|v0 l Hv IH IHl]; [exists []; split; constructor|]. inversion F; subst. destruct (Hv s) as (a & Ea & Es); [assumption|]. destruct IHl as (r & R & A); [assumption|].
      exists (a :: r). split; constructor; auto. }
    rewrite (array_of_seq w l S), (arrays_of_total l r R). destruct (stack_total r s A) as (a & E & Ea); [intros ->; inversion R; subst; congruence|]. exists a. split; [exact E|]. rewrite (Forall2_length _ _ _ R). exact Ea. }
  induction v as [v L|l IH|l IH|l IH] using pyval_ind2; intros s H.
  - inversion H; subst; try contradiction; eexists; split; reflexivity.
  - inversion H; subst; [eapply Seq; eauto; left; reflexivity|]. eexists; split; reflexivity.
  - inversion H; subst; [eapply Seq; eauto; right; reflexivity|]. eexists; split; reflexivity.
  - inversion H.
Qed.
Lemma found_fun v idx x : found v idx x -> forall y, found v idx y -> x = y.
Proof. intros H. induction H; intros y G; inversion G; subst; auto; apply IHfound; congruence. Qed.
Lemma shaped_fun v s t : shaped v s -> shaped v t -> s = t.
Proof.
  revert s t. induction v as [v L|l IH|l IH|l IH] using pyval_ind2; intros s t H G.
  - inversion H; subst; try contradiction; inversion G; subst; reflexivity.
  - inversion H as [| |? s' F N| | |]; subst; inversion G as [| |? t' F' N'| | |]; subst; try congruence. f_equal. destruct l as [|v l]; [congruence|]. inversion IH; inversion F; inversion F'; subst; auto.
  - inversion H as [| | |? s' F N| |]; subst; inversion G as [| | |? t' F' N'| |]; subst; try congruence. f_equal. destruct l as [|v l]; [congruence|]. inversion IH; inversion F; inversion F'; subst; auto.
  - inversion H.
Qed.
Lemma isclose_ok a b : isclose a b = true <-> agrees a b.
Proof.
  destruct a as [p|s|], b as [q|t|]; unfold isclose; cbn [isfinite andb isnan orb feq agrees]; try (split; [discriminate|intros []]; fail); try tauto.
  - cbn [fsub fadd fopp fabs fscale]. rewrite fle_fin. fold (p - q)%Q. assert (1 # 10 ^ 7 == / inject_Z (10 ^ 7))%Q as -> by reflexivity.
    assert (0 < inject_Z (10 ^ 7))%Q as P by reflexivity. split; intros H.
    + apply (Qmult_le_r _ _ (inject_Z (10 ^ 7)) P) in H. eapply Qle_trans; [exact H|]. rewrite <- Qmult_assoc, (Qmult_comm (Qabs q)), Qmult_assoc, (Qmult_comm (/ _)), Qmult_inv_r; [rewrite Qmult_1_l; apply Qle_refl|]. discriminate.
    + apply (Qmult_le_r _ _ (inject_Z (10 ^ 7)) P). eapply Qle_trans; [exact H|]. rewrite <- Qmult_assoc, (Qmult_comm (Qabs q)), Qmult_assoc, (Qmult_comm (/ _)), Qmult_inv_r; [rewrite Qmult_1_l; apply Qle_refl|]. discriminate.
  - rewrite Bool.eqb_true_iff. tauto.
Qed.
Lemma ufunc_verdict {A B} (f : A -> B -> bool) x y : match ufunc2 f x y with Ok same => all_true same | Raise _ => false end = true <-> stretched_pairwise (fun a b => f a b = true) x y.
Proof. rewrite <- verdict_ok. unfold verdict. destruct (ufunc2 f x y) as [z|e]; cbn [rbind]; [rewrite check_ok; tauto|split; discriminate]. Qed.
Lemma common_nil_l t s : common [] t s <-> s = t.
Proof.
  rewrite <- bc_common. cbn [rev bc]. split; [|intros ->; reflexivity]. intros H. injection H as H. apply (f_equal (@rev nat)) in H. rewrite !rev_involutive in H. auto.
Qed.
Lemma scalar_l {A B} (R : A -> B -> Prop) x y : ashape x = [] -> (stretched_pairwise R x y <-> forall idx, inside (ashape y) idx -> R (aval x []) (aval y idx)).
Proof.
  intros E. unfold stretched_pairwise. rewrite E. split.
  - intros (s & C & H) idx Hi. apply common_nil_l in C. subst s. specialize (H idx Hi). rewrite facing_same in H by exact Hi. exact H.
  - intros H. exists (ashape y). split; [apply common_nil_l; reflexivity|]. intros idx Hi. rewrite facing_same by exact Hi. apply H. exact Hi.
Qed.
Lemma scalar_r {A B} (R : A -> B -> Prop) x y : ashape y = [] -> (stretched_pairwise R x y <-> forall idx, inside (ashape x) idx -> R (aval x idx) (aval y [])).
Proof.
  intros E. unfold stretched_pairwise. rewrite E. split.
  - intros (s & C & H) idx Hi. apply common_sym, common_nil_l in C. subst s. specialize (H idx Hi). rewrite facing_same in H by exact Hi. exact H.
  - intros H. exists (ashape x). split; [apply common_sym, common_nil_l; reflexivity|]. intros idx Hi. rewrite facing_same by exact Hi. apply H. exact Hi.
Qed.
Lemma allclose_ok a b : assert_allclose a b = true <-> same_numbers a b.
Proof.
  unfold assert_allclose, same_numbers. split.
  - destruct (array_of a) as [x|] eqn:Ea; [|discriminate]. destruct (array_of b) as [y|] eqn:Eb; [|discriminate]. apply array_of_ok in Ea as [Sa Fa]. apply array_of_ok in Eb as [Sb Fb].
    unfold allclose. destruct (scalar_shape x || scalar_shape y || same_shape x y) eqn:C; [|discriminate]. rewrite ufunc_verdict. intros H. exists (ashape x), (ashape y). split; [exact Sa|]. split; [exact Sb|].
    unfold scalar_shape in C. destruct (ashape x) as [|n s] eqn:Ex.
    + split; [auto|]. intros idx u v Hi Hu Hv. rewrite (scalar_l _ x y Ex) in H. apply isclose_ok.
      rewrite (found_fun _ _ _ Hu (aval x []) (Fa [] (Forall2_nil _))).
      assert (match ashape y with [] => [] | _ :: _ => idx end = idx) as Ei. { destruct (ashape y); [inversion Hi; reflexivity|reflexivity]. } rewrite Ei in Hv.
      rewrite (found_fun _ _ _ Hv (aval y idx) (Fb idx Hi)). apply H. exact Hi.
    + destruct (ashape y) as [|m t] eqn:Ey.
      * split; [auto|]. intros idx u v Hi Hu Hv. rewrite (scalar_r _ x y Ey) in H. rewrite Ex in H. apply isclose_ok. rewrite (found_fun _ _ _ Hv (aval y []) (Fb [] (Forall2_nil _))).
        rewrite (found_fun _ _ _ Hu (aval x idx) (Fa idx Hi)). apply H. exact Hi.
      * cbn [orb] in C. apply same_shape_ok in C. rewrite stretched_pairwise_same in H by exact C. destruct H as [_ H]. rewrite Ex in C, H. rewrite Ey in C. split; [auto|]. intros idx u v Hi Hu Hv. apply isclose_ok.
        rewrite (found_fun _ _ _ Hu (aval x idx) (Fa idx Hi)). rewrite C in Hi. rewrite (found_fun _ _ _ Hv (aval y idx) (Fb idx Hi)). apply H. rewrite C. exact Hi.
  - intros (s & t & Sa & Sb & C & H). destruct (array_of_total a s Sa) as (x & Ea & <-). destruct (array_of_total b t Sb) as (y & Eb & <-). rewrite Ea, Eb.
    apply array_of_ok in Ea as [_ Fa]. apply array_of_ok in Eb as [_ Fb]. unfold allclose.
    assert (scalar_shape x || scalar_shape y || same_shape x y = true) as ->.
    { unfold scalar_shape. destruct C as [C|[C|C]]; [apply same_shape_ok in C; rewrite C; apply orb_true_r|rewrite C; reflexivity|rewrite C; rewrite orb_true_r; reflexivity]. }
    rewrite ufunc_verdict. destruct (ashape x) as [|n s] eqn:Ex.
    + rewrite (scalar_l _ x y Ex). intros idx Hi. apply isclose_ok. apply (H idx); [exact Hi|apply Fa; constructor|].
      destruct (ashape y); [inversion Hi; subst; apply Fb; constructor|apply Fb; exact Hi].
    + destruct (ashape y) as [|m t] eqn:Ey.
      * rewrite (scalar_r _ x y Ey). rewrite Ex. intros idx Hi. apply isclose_ok. apply (H idx); [exact Hi|apply Fa; exact Hi|apply Fb; constructor].
      * destruct C as [C|[C|C]]; try discriminate. assert (ashape x = ashape y) as Exy by congruence. rewrite stretched_pairwise_same by exact Exy. split; [exact Exy|]. rewrite Ex. intros idx Hi. apply isclose_ok.
        apply (H idx); [exact Hi|apply Fa; exact Hi|apply Fb; rewrite <- C; exact Hi].
Qed.

(** One step of assert_eq *)
Definition numbers (a b : pyval) : bool := is_num a && is_num b || is_arr a && is_seq b || is_arr b && is_seq a.
Definition eq_list : list pyval -> list pyval -> bool :=
  fix go (l m : list pyval) : bool := match l, m with v :: l', w :: m' => assert_eq v w && go l' m' | _, _ => true end.
Definition eq_dict (lb : list (string * pyval)) : list (string * pyval) -> bool :=
  fix go (l : list (string * pyval)) : bool :=
    match l with [] => true | (k, v) :: l' => match lookup k lb with Some w => assert_eq v w | None => false end && go l' end.
Lemma assert_eq_step a b : assert_eq a b =
  if numbers a b then assert_allclose a b
  else if is_arr a || is_arr b then false
  else
    match a, b with
    | VDict la, VDict lb => same_set (map fst la) (map fst lb) && eq_dict lb la
    | _, _ =>
        if is_container a && is_container b then
          (List.length (items a) =? List.length (items b))
          && match a with
             | VList l | VTuple l => eq_list l (items b)
             | VDict l => strs_eq (map fst l) (items b)
             | VFrozen l => strs_eq l (items b)
             | _ => true
             end
        else py_equal a b
    end.
Proof. destruct a; reflexivity. Qed.
Lemma mem_ok s l : mem s l = true <-> In s l.
Proof. unfold mem. rewrite existsb_exists. split; [intros (t & H & E); apply String.eqb_eq in E; subst; exact H|]. intros H. exists s. split; [exact H|apply String.eqb_refl]. Qed.
Lemma same_set_ok l m : same_set l m = true <-> forall s, In s l <-> In s m.
Proof.
  unfold same_set. rewrite andb_true_iff, !forallb_forall. split.
  - intros [H G] s. split; intros I; apply mem_ok; auto.
  - intros H. split; intros s I; apply mem_ok, H, I.
Qed.
Lemma lookup_in k l v : NoDup (map fst l) -> (lookup k l = Some v <-> In (k, v) l).
Proof.
  induction l as [|[k' v'] l IH]; intros N; [split; [discriminate|intros []]|]. cbn [map fst] in N. inversion N as [|? ? N1 N2]; subst. cbn [lookup]. destruct (String.eqb_spec k k') as [->|D].
  - split; [intros E; injection E as ->; left; reflexivity|]. intros [E|I]; [injection E as ->; reflexivity|]. exfalso. apply N1. change k' with (fst (k', v)). apply in_map. exact I.
  - rewrite IH by exact N2. split; [right; auto|]. intros [E|I]; [congruence|exact I].
Qed.
Lemma numbers_value a b : numbers a b = true -> (same_value a b <-> same_numbers a b).
Proof.
  intros C. split.
  - intros H. destruct H as [|i|s|a b _ _ H|a b l _ H|a b l _ H|a b l m Ha Hb _|a b l m Ha Hb _|l m _ _]; try discriminate; auto.
    + destruct Ha as [->| ->], Hb as [->| ->]; discriminate.
    + destruct Ha as [->| ->], Hb as [->| ->]; discriminate.
  - intros H. unfold numbers in C. rewrite !orb_true_iff, !andb_true_iff in C. destruct C as [[[Ca Cb]|[Ca Cb]]|[Cb Ca]].
    + apply same_num; auto; [destruct a|destruct b]; try discriminate; [left|right|left|right]; eauto.
    + destruct a; try discriminate. destruct b; try discriminate; eapply same_arr_seq; eauto; [left|right]; reflexivity.
    + destruct b; try discriminate. destruct a; try discriminate; eapply same_seq_arr; eauto; [left|right]; reflexivity.
Qed.
Lemma not_numbers a b : numbers a b = false -> is_arr a || is_arr b = true -> ~ same_value a b.
Proof.
  intros C A H. unfold numbers in C. apply orb_false_iff in C as [C C3]. apply orb_false_iff in C as [C1 C2].
  destruct H as [|i|s|a b Ha Hb H|a b l Hb H|a b l Ha H|a b l m Ha Hb _|a b l m Ha Hb _|l m _ _]; try discriminate.
  - destruct Ha as [[? ->]|[? ->]], Hb as [[? ->]|[? ->]]; discriminate.
  - destruct Hb as [->| ->]; discriminate.
  - destruct Ha as [->| ->]; discriminate.
  - destruct Ha as [->| ->], Hb as [->| ->]; discriminate.
  - destruct Ha as [->| ->], Hb as [->| ->]; discriminate.
Qed.
(** Values that are neither both numbers, nor arrays, nor both containers *)
Lemma leaves_value a b : numbers a b = false -> is_arr a || is_arr b = false -> is_container a && is_container b = false -> (py_equal a b = true <-> same_value a b).
Proof.
  intros C A K. split.
  - destruct a, b; try discriminate; cbn [py_equal]; intros H.
    + constructor.
    + apply String.eqb_eq in H. subst. constructor.
    + rewrite same_set_ok in H. eapply same_sets; eauto.
    + rewrite same_set_ok in H. eapply same_sets; eauto.
    + rewrite same_set_ok in H. eapply same_sets; eauto.
    + apply Nat.eqb_eq in H. subst. constructor.
  - unfold numbers in C. apply orb_false_iff in C as [C C3]. apply orb_false_iff in C as [C1 C2]. intros H. destruct H as [|i|s|a b Ha Hb H|a b l Hb H|a b l Ha H|a b l m Ha Hb H|a b l m Ha Hb _|l m _ _]; try discriminate.
    + reflexivity.
    + apply Nat.eqb_refl.
    + apply String.eqb_refl.
    + destruct Ha as [[? ->]|[? ->]], Hb as [[? ->]|[? ->]]; discriminate.
    + rewrite orb_true_r in A. discriminate.
    + destruct Ha as [->| ->], Hb as [->| ->]; try discriminate; apply same_set_ok, H.
    + destruct Ha as [->| ->], Hb as [->| ->]; discriminate.
Qed.
Lemma eq_list_cons v l w m : eq_list (v :: l) (w :: m) = assert_eq v w && eq_list l m.
Proof. reflexivity. Qed.
Lemma eq_dict_cons lb k v l : eq_dict lb ((k, v) :: l) = match lookup k lb with Some w => assert_eq v w | None => false end && eq_dict lb l.
Proof. reflexivity. Qed.
Definition decided (a : pyval) : Prop := forall b, wf a -> wf b -> regular a b -> (assert_eq a b = true <-> same_value a b).
Lemma eq_list_ok l : Forall decided l -> Forall wf l -> forall m, Forall wf m -> Forall2 regular l m -> (eq_list l m = true <-> Forall2 same_value l m).
Proof.
  intros IH Wl m Wm R. induction R as [|v w l m Hr R IHR]; [split; [constructor|reflexivity]|]. inversion IH; inversion Wl; inversion Wm; subst. rewrite eq_list_cons, andb_true_iff, IHR by assumption.
  rewrite (H1 w) by assumption. split; [intros []; constructor; auto|]. intros F. inversion F; subst. auto.
Qed.
Lemma wf_seq v l : sequence v l -> wf v -> Forall wf l.
Proof. intros [->| ->] H; inversion H as [? F| | |]; subst; try contradiction; auto. Qed.
Lemma seq_fun v l m : sequence v l -> sequence v m -> l = m.
Proof. intros [->| ->] [E|E]; congruence. Qed.
Lemma seq_items v l : sequence v l -> items v = l /\ is_container v = true /\ is_arr v = false /\ is_num v = false.
Proof. intros [->| ->]; auto. Qed.
Lemma assert_eq_seq a b l m : sequence a l -> sequence b m -> assert_eq a b = (List.length l =? List.length m) && eq_list l m.
Proof. intros [->| ->] [->| ->]; rewrite assert_eq_step; reflexivity. Qed.
Lemma same_value_seq a b l m : sequence a l -> sequence b m -> same_value a b -> Forall2 same_value l m.
Proof.
  intros Sa Sb H. destruct H as [|i|s|a b Ha Hb H|a b k Hb H|a b k Ha H|a b k n Ha Hb H|a b k n Ha Hb F|k n _ _].
  - destruct Sa; discriminate.
  - destruct Sa; discriminate.
  - destruct Sa; discriminate.
  - destruct Sa as [->| ->], Ha as [[? E]|[? E]]; discriminate.
  - destruct Sa; discriminate.
  - destruct Sb; discriminate.
  - destruct Sa as [->| ->], Ha; discriminate.
  - rewrite (seq_fun _ _ _ Sa Ha), (seq_fun _ _ _ Sb Hb). exact F.
  - destruct Sa; discriminate.
Qed.
Lemma decided_seq a l : sequence a l -> Forall decided l -> decided a.
Proof.
  intros S IH b Wa Wb R. destruct R as [a b [K|K]|a b l' m Sa Sb F|a b l' m Sa Sb F|l' m F].
  - apply seq_items in S as (_ & S & _). congruence.
  - rewrite assert_eq_step. destruct (numbers a b) eqn:N; [rewrite allclose_ok, numbers_value by exact N; tauto|].
    destruct (is_arr a || is_arr b) eqn:A; [split; [discriminate|]; intros H; exfalso; exact (not_numbers a b N A H)|].
    assert (is_container a && is_container b = false) as C by (rewrite K; apply andb_false_r). rewrite C. rewrite <- (leaves_value a b N A C). destruct S as [->| ->]; tauto.
  - pose proof (seq_fun _ _ _ S Sa). subst l'. rewrite (assert_eq_seq a b l m Sa Sb). rewrite andb_true_iff, Nat.eqb_eq. rewrite (eq_list_ok l IH (wf_seq a l S Wa) m (wf_seq b m Sb Wb) F). split.
    + intros [_ H]. eapply same_seq; eauto.
    + intros H. apply (same_value_seq a b l m S Sb) in H. split; [apply (Forall2_length _ _ _ H)|exact H].
  - pose proof (seq_fun _ _ _ S Sa). subst l'. rewrite (assert_eq_seq a b l m Sa Sb). rewrite andb_true_iff, Nat.eqb_eq. split; [intros [E _]; congruence|]. intros H. apply (same_value_seq a b l m S Sb) in H. apply Forall2_length in H. congruence.
  - destruct S; discriminate.
Qed.
Lemma decided_leaf a : leaf a -> decided a.
Proof.
  intros L b Wa Wb R. rewrite assert_eq_step. destruct (numbers a b) eqn:N; [rewrite allclose_ok, numbers_value by exact N; tauto|].
  destruct (is_arr a || is_arr b) eqn:A; [split; [discriminate|]; intros H; exfalso; exact (not_numbers a b N A H)|].
  destruct R as [a b K|a b l' m Sa Sb F|a b l' m Sa Sb F|l' m F]; try (destruct Sa as [->| ->]; contradiction); [|contradiction].
  assert (is_container a && is_container b = false) as C by (destruct K as [K|K]; rewrite K; [reflexivity|apply andb_false_r]). rewrite C. rewrite <- (leaves_value a b N A C). destruct a; try contradiction; tauto.
Qed.
Lemma eq_dict_ok l m : Forall (fun kv => decided (snd kv)) l -> Forall (fun kv => wf (snd kv)) l -> Forall (fun kv => wf (snd kv)) m -> NoDup (map fst m) ->
  (forall k, In k (map fst l) -> In k (map fst m)) -> (forall k v w, In (k, v) l -> In (k, w) m -> regular v w) ->
  (eq_dict m l = true <-> forall k v w, In (k, v) l -> In (k, w) m -> same_value v w).
Proof.
  intros IH Wl Wm N. induction l as [|[k v] l IHl]; intros K R.
  - split; [intros _ k v w []|reflexivity].
  - inversion IH; inversion Wl; subst. rewrite eq_dict_cons, andb_true_iff. rewrite IHl; auto; [|intros k' Hk; apply K; right; exact Hk|intros k' v' w' Hv Hw; eapply R; [right; exact Hv|exact Hw]].
    assert (exists w, In (k, w) m) as [w Hw]. { specialize (K k (or_introl eq_refl)). apply in_map_iff in K as ([k' w] & E & I). cbn in E. subst. eauto. }
    pose proof (proj2 (lookup_in k m w N) Hw) as Lk. rewrite Lk. cbn [snd] in *. assert (wf w) as Ww by (rewrite Forall_forall in Wm; apply (Wm (k, w) Hw)).
    rewrite (H1 w) by (first [assumption|eapply R; [left; reflexivity|exact Hw]]). split.
    + intros [Hv Hr] k' v' w' [E|I] J; [|eapply Hr; eauto]. injection E as <- <-. apply (lookup_in k m w' N) in J. rewrite Lk in J. injection J as <-. exact Hv.
    + intros H. split; [apply (H k); [left; reflexivity|exact Hw]|]. intros k' v' w' I J. apply (H k'); [right; exact I|exact J].
Qed.
Lemma wf_dict_inv l : wf (VDict l) -> NoDup (map fst l) /\ Forall (fun kv => wf (snd kv)) l.
Proof. intros H. inversion H; subst; [contradiction|auto]. Qed.
Lemma decided_dict l : Forall (fun kv => decided (snd kv)) l -> decided (VDict l).
Proof.
  intros IH b Wa Wb R. remember (VDict l) as a eqn:Ea. destruct R as [a b [K|K]|a b l' m Sa Sb F|a b l' m Sa Sb F|l' m F].
  - subst a. discriminate.
  - rewrite assert_eq_step. destruct (numbers a b) eqn:N; [rewrite allclose_ok, numbers_value by exact N; tauto|].
    destruct (is_arr a || is_arr b) eqn:A; [split; [discriminate|]; intros H; exfalso; exact (not_numbers a b N A H)|].
    assert (is_container a && is_container b = false) as C by (rewrite K; apply andb_false_r). rewrite C. rewrite <- (leaves_value a b N A C). subst a. destruct b; try discriminate; tauto.
  - destruct Sa as [->| ->]; discriminate.
  - destruct Sa as [->| ->]; discriminate.
  - injection Ea as ->. rewrite assert_eq_step. cbn [numbers is_num is_arr is_seq andb orb]. rewrite andb_true_iff, same_set_ok.
    apply wf_dict_inv in Wa as [Nl Wl]. apply wf_dict_inv in Wb as [Nm Wm]. split.
    + intros [K E]. apply same_dict; [exact K|]. apply (eq_dict_ok l m IH Wl Wm Nm (fun k => proj1 (K k)) F). exact E.
    + intros H. assert ((forall k, In k (map fst l) <-> In k (map fst m)) /\ forall k v w, In (k, v) l -> In (k, w) m -> same_value v w) as [K E].
      { inversion H; subst; auto; repeat match goal with G : _ \/ _ |- _ => destruct G as [G|G] | G : sequence _ _ |- _ => destruct G as [G|G] | G : number_like _ |- _ => destruct G as [[? G]|[? G]] end; discriminate. }
      split; [exact K|]. apply (eq_dict_ok l m IH Wl Wm Nm (fun k => proj1 (K k)) F). exact E.
Qed.
Lemma assert_eq_ok a b : wf a -> wf b -> regular a b -> (assert_eq a b = true <-> same_value a b).
Proof.
  revert b. change (decided a). induction a as [v L|l IH|l IH|l IH] using pyval_ind2.
  - apply decided_leaf, L.
  - apply (decided_seq _ l); [left; reflexivity|exact IH].
  - apply (decided_seq _ l); [right; reflexivity|exact IH].
  - apply decided_dict, IH.
Qed.
(** ** Reflexivity *)
Lemma agrees_refl x : agrees x x.
Proof. destruct x as [p|s|]; cbn [agrees]; auto. assert (p - p == 0)%Q as -> by ring. cbn [Qabs]. rewrite Qmult_0_l. apply Qabs_nonneg. Qed.
Lemma strs_refl l : strs_eq l (map VStr l) = true.
Proof. induction l as [|s l IH]; [reflexivity|]. cbn. rewrite String.eqb_refl. exact IH. Qed.
Lemma numbers_refl a s : shaped a s -> same_numbers a a.
Proof. intros S. exists s, s. repeat (split; auto). intros idx x y _ Hx Hy. rewrite (found_fun _ _ _ Hx y Hy). apply agrees_refl. Qed.
Lemma assert_eq_refl a : wf a -> assert_eq a a = true.
Proof.
  induction a as [v L|l IH|l IH|l IH] using pyval_ind2; intros W.
  - rewrite assert_eq_step. destruct v; try contradiction; cbn [numbers is_num is_arr is_seq andb orb is_container items py_equal].
    + reflexivity.
    + apply allclose_ok. eapply numbers_refl. constructor.
    + apply String.eqb_refl.
    + apply same_set_ok. tauto.
    + rewrite Nat.eqb_refl, strs_refl. reflexivity.
    + apply allclose_ok. eapply numbers_refl. constructor.
    + apply Nat.eqb_refl.
  - rewrite (assert_eq_seq _ _ l l) by (left; reflexivity). rewrite Nat.eqb_refl. cbn [andb]. assert (Forall wf l) as Wl by (inversion W; subst; [contradiction|assumption]). clear W.
    induction IH as [|v l Hv IH IHl]; [reflexivity|]. inversion Wl; subst. rewrite eq_list_cons, Hv, IHl by assumption. reflexivity.
  - rewrite (assert_eq_seq _ _ l l) by (right; reflexivity). rewrite Nat.eqb_refl. cbn [andb]. assert (Forall wf l) as Wl by (inversion W; subst; [contradiction|assumption]). clear W.
    induction IH as [|v l Hv IH IHl]; [reflexivity|]. inversion Wl; subst. rewrite eq_list_cons, Hv, IHl by assumption. reflexivity.
  - rewrite assert_eq_step. cbn [numbers is_num is_arr is_seq andb orb]. assert (same_set (map fst l) (map fst l) = true) as -> by (apply same_set_ok; tauto). cbn [andb].
    apply wf_dict_inv in W as [N Wl]. assert (forall m, NoDup (map fst m) -> incl l m -> eq_dict m l = true) as G; [|apply G; [exact N|apply incl_refl]]. clear N.
    intros m N I. induction IH as [|[k v] l Hv IH IHl]; [reflexivity|]. inversion Wl; subst. rewrite eq_dict_cons. rewrite (proj2 (lookup_in k m v N)) by (apply I; left; reflexivity). cbn [snd] in *. rewrite Hv by assumption.
    apply IHl; [assumption|]. intros x Hx. apply I. right. exact Hx.
Qed.
