From Coq Require Import Permutation.
From Verif Require Import Base Algebra EngineModel EngineSpec EngineProofs RuleModel CalcModel CalcSpec CalcBlocks.

(** ** The rules of an operator come from the calls *)
Section Histories.
Context {class pred : Type} (class_eqb subclass : class -> class -> bool).
Notation history := (history class_eqb subclass (pred := pred)).
Notation exec := (exec class_eqb subclass (pred := pred)).
Definition from_calls (cs : list (call class pred)) (o : operation) (r : rule class pred) : Prop :=
  match o with
  | Composition => In (Set_ Composition r) cs
  | _ => exists r', In (Set_ o r') cs /\ r = if reference class_eqb r' then swap r' else r'
  end.
Lemma replace_at_In (l : list (rule class pred)) i r x : In x (replace_at l i r) -> x = r \/ In x l.
Proof. revert i. induction l as [|a l IH]; simpl; [auto|]. destruct i; simpl; intros [H|H]; auto. apply IH in H. tauto. Qed.
Lemma insert_at_In (l : list (rule class pred)) i r x : In x (insert_at l i r) -> x = r \/ In x l.
Proof.
  unfold insert_at. rewrite in_app_iff. simpl. intros [H|[H|H]]; auto; right.
  - rewrite <- (firstn_skipn i l). apply in_app_iff. auto.
  - rewrite <- (firstn_skipn i l). apply in_app_iff. auto.
Qed.
Lemma delete_at_In (l : list (rule class pred)) i x : In x (delete_at l i) -> In x l.
Proof. revert i. induction l as [|a l IH]; simpl; [auto|]. destruct i; simpl; [auto|]. intros [H|H]; auto. right. eauto. Qed.
Lemma set_rule_list_In r (l l' : list (rule class pred)) x : set_rule_list class_eqb subclass r l = Ok l' -> In x l' -> x = r \/ In x l.
Proof.
  unfold set_rule_list. destruct (index_of _ _ _) as [i|].
  - intros [= <-]. apply replace_at_In.
  - destruct (other _ r) as [|c]; [intros [= <-]; apply insert_at_In|]. destruct (class_position _ _ _ _); [|discriminate].
    intros [= <-]. apply insert_at_In.
Qed.
Lemma del_rule_list_In s (l l' : list (rule class pred)) x : del_rule_list class_eqb s l = Ok l' -> In x l' -> In x l.
Proof. unfold del_rule_list. destruct (index_of _ _ _) as [i|]; [|discriminate]. intros [= <-]. apply delete_at_In. Qed.
Definition all_from (cs : list (call class pred)) (t : lists class pred) : Prop :=
  (forall r, In r (add_rules t) -> from_calls cs Addition r) /\ (forall r, In r (mul_rules t) -> from_calls cs Multiplication r)
  /\ (forall r, In r (left_rules t) -> from_calls cs Composition r /\ reference class_eqb r = false)
  /\ (forall r, In r (right_rules t) -> from_calls cs Composition r /\ reference class_eqb r = true).
Lemma history_from cs : all_from cs (history cs).
Proof.
  unfold RuleModel.history. assert (H : forall l t, incl l cs -> all_from cs t -> all_from cs (fold_left exec l t)).
  2:{ apply H; [apply incl_refl|]. unfold all_from. simpl. tauto. }
  induction l as [|c l IH]; simpl; intros t I A; [exact A|]. apply IH; [intros x Hx; apply I; simpl; auto|].
  assert (Ic : In c cs) by (apply I; simpl; auto). clear IH I. unfold RuleModel.exec. destruct A as [A1 [A2 [A3 A4]]].
  assert (A : all_from cs t) by (unfold all_from; auto).
  destruct c as [o r|o s].
  - unfold set_rule. destruct o.
    + destruct (set_rule_list _ _ _ _) as [l'|] eqn:E; [|exact A]. simpl. unfold all_from. simpl. split; [|exact (conj A2 (conj A3 A4))].
      intros x Hx. destruct (set_rule_list_In _ _ _ _ E Hx) as [->|H]; [|exact (A1 _ H)]. exists r. auto.
    + destruct (set_rule_list _ _ _ _) as [l'|] eqn:E; [|exact A]. simpl. unfold all_from. simpl. split; [exact A1|]. split; [|exact (conj A3 A4)].
      intros x Hx. destruct (set_rule_list_In _ _ _ _ E Hx) as [->|H]; [|exact (A2 _ H)]. exists r. auto.
    + destruct (reference class_eqb r) eqn:R.
      * destruct (set_rule_list _ _ _ _) as [l'|] eqn:E; [|exact A]. simpl. unfold all_from. simpl. split; [exact A1|]. split; [exact A2|]. split; [exact A3|].
        intros x Hx. destruct (set_rule_list_In _ _ _ _ E Hx) as [->|H]; [|exact (A4 _ H)]. auto.
      * destruct (set_rule_list _ _ _ _) as [l'|] eqn:E; [|exact A]. simpl. unfold all_from. simpl. split; [exact A1|]. split; [exact A2|]. split; [|exact A4].
        intros x Hx. destruct (set_rule_list_In _ _ _ _ E Hx) as [->|H]; [|exact (A3 _ H)]. auto.
  - unfold del_rule. destruct o; [| |destruct (is_dot _ _)];
      (destruct (del_rule_list _ _ _) as [l'|] eqn:E; [|exact A]); simpl; unfold all_from; simpl.
    + split; [|exact (conj A2 (conj A3 A4))]. intros x Hx. exact (A1 _ (del_rule_list_In _ _ _ _ E Hx)).
    + split; [exact A1|]. split; [|exact (conj A3 A4)]. intros x Hx. exact (A2 _ (del_rule_list_In _ _ _ _ E Hx)).
    + split; [exact A1|]. split; [exact A2|]. split; [exact A3|]. intros x Hx. exact (A4 _ (del_rule_list_In _ _ _ _ E Hx)).
    + split; [exact A1|]. split; [exact A2|]. split; [|exact A4]. intros x Hx. exact (A3 _ (del_rule_list_In _ _ _ _ E Hx)).
Qed.
Lemma sort_In k (l : list (rule class pred)) x : In x (sort k l) -> In x l.
Proof.
  induction l as [|a l IH]; simpl; [auto|]. intros H. assert (Q : forall l, In x (insert_sorted k a l) -> x = a \/ In x l).
  { clear. induction l as [|b l IH]; simpl; [intros [H|[]]; auto|]. destruct (k a <=? k b)%Z; simpl; [intros [H|[H|H]]; auto|].
    intros [H|H]; auto. apply IH in H. tauto. }
  apply Q in H. destruct H as [->|H]; auto.
Qed.
End Histories.

Section Calc.
Context {K : cring} {atom : Type} (env : oracles K atom).
Add Ring Kring : (rth K).
Notation op := (op K atom).
Notation arr := (arr K).
Notation vec := (list K).
Notation keqb := (k_eqb env).
Variable aden : atom -> vec -> vec -> Prop.
Local Open Scope cr_scope.
Hypothesis C : calculus aden env.
Notation den := (den aden).
Notation linear := (linear env).
Notation op_eqb := (op_eqb env).
Notation mkdiag := (mkdiag env).
Notation mkhomo := (mkhomo env).
Notation mkconst := (mkconst env).
Notation mkpower := (mkpower (K := K) (atom := atom)).
Notation kind_den := (kind_den aden).
Variable bk : bool.
Hypothesis Hbk : bk = true -> blocks_fixed env = true /\ add_numbers env = true.
Notation wf := (CalcSpec.wf (K := K) (atom := atom) bk).

Section Ind.
Variable P : op -> Prop.
Hypotheses (H1 : forall a, P (Atom a)) (H2 : P Ident) (H3 : forall s, P (Homo s)) (H4 : P Zero) (H5 : forall c, P (Const c))
  (H6 : forall d, P (Diag d)) (H7 : forall m, P (Mask m)) (H8 : forall n, P (Power n))
  (H9 : forall l, Forall P l -> P (Comp l)) (H10 : forall l, Forall P l -> P (Add l)) (H11 : forall l, Forall P l -> P (Mul l))
  (H12 : forall pi po l, Forall P l -> P (Block pi po l)).
Fixpoint op_induction (o : op) : P o :=
  let all := (fix all (l : list op) : Forall P l := match l with [] => Forall_nil P | o :: l' => Forall_cons o (op_induction o) (all l') end) in
  match o with
  | Atom a => H1 a | Ident => H2 | Homo s => H3 s | Zero => H4 | Const c => H5 c | Diag d => H6 d | Mask m => H7 m | Power n => H8 n
  | Comp l => H9 l (all l) | Add l => H10 l (all l) | Mul l => H11 l (all l) | Block pi po l => H12 pi po l (all l)
  end.
End Ind.

Lemma keqb_true a b : keqb a b = true -> a = b. Proof. apply (keqb_ok _ _ C). Qed.
Lemma keqb_refl a : keqb a a = true. Proof. apply (keqb_ok _ _ C). reflexivity. Qed.
Lemma keqb_false a b : keqb a b = false -> a <> b. Proof. intros H ->. rewrite keqb_refl in H. discriminate. Qed.

Lemma wf_all (l : list op) : (fix all (l : list op) : Prop := match l with [] => True | o :: l' => wf o /\ all l' end) l <-> Forall wf l.
Proof. induction l as [|o l IH]; simpl; [split; auto|]. rewrite IH, Forall_cons_iff. reflexivity. Qed.
Lemma wf_Comp l : wf (Comp l : op) <-> Forall wf l. Proof. apply wf_all. Qed.
Lemma wf_Add l : wf (Add l : op) <-> Forall wf l. Proof. apply wf_all. Qed.
Lemma wf_Mul l : wf (Mul l : op) <-> Forall wf l. Proof. apply wf_all. Qed.
Lemma wf_Block pi po l : wf (Block pi po l : op) <-> bk = true /\ Forall wf l. Proof. simpl. rewrite wf_all. reflexivity. Qed.

(** ** Vectors *)
Lemma zip_length f (a b : vec) : length (zip f a b) = Nat.min (length a) (length b).
Proof. unfold zip. rewrite map_length. apply combine_length. Qed.
Lemma zip_cons f a b (u v : vec) : zip f (a :: u) (b :: v) = f a b :: zip f u v. Proof. reflexivity. Qed.
Lemma zip_comm (f : K -> K -> K) : (forall a b, f a b = f b a) -> forall u v : vec, zip f u v = zip f v u.
Proof. intros H. induction u as [|a u IH]; intros [|b v]; simpl; try reflexivity. rewrite !zip_cons, IH, H. reflexivity. Qed.
Lemma zip_assoc (f : K -> K -> K) : (forall a b c, f a (f b c) = f (f a b) c) -> forall u v w : vec, zip f u (zip f v w) = zip f (zip f u v) w.
Proof. intros H. induction u as [|a u IH]; intros [|b v] [|c w]; simpl; try reflexivity. rewrite !zip_cons, IH, H. reflexivity. Qed.
Lemma plus_comm : commutative_operation (plus (K := K)).
Proof.
  split.
  - intros a b y [L ->]. split; [auto|]. apply zip_comm. intros; ring.
  - intros a b c u y [L1 ->] [L2 ->]. rewrite zip_length in L2. exists (zip radd b c). split; [split; [lia|reflexivity]|].
    split; [rewrite zip_length; lia|]. symmetry. apply zip_assoc. intros; ring.
Qed.
Lemma times_comm : commutative_operation (times (K := K)).
Proof.
  split.
  - intros a b y [L ->]. split; [auto|]. apply zip_comm. intros; ring.
  - intros a b c u y [L1 ->] [L2 ->]. rewrite zip_length in L2. exists (zip rmul b c). split; [split; [lia|reflexivity]|].
    split; [rewrite zip_length; lia|]. symmetry. apply zip_assoc. intros; ring.
Qed.
Lemma combined_combines {op X : Type} (den : op -> X -> X -> Prop) comb l x y : combined den comb l x y <-> combines den comb l x y.
Proof.
  unfold combines. revert y. induction l as [|o l IH]; intros y.
  - simpl. split; [tauto|]. intros [ys [F T]]. inversion F; subst. exact T.
  - destruct l as [|o' l].
    + simpl. split.
      * intros H. exists [y]. split; [auto|reflexivity].
      * intros [ys [F T]]. inversion F as [|? a ? ys' F1 F2]; subst. inversion F2; subst. simpl in T. subst. exact F1.
    + change (combined den comb (o :: o' :: l) x y) with (exists a b, den o x a /\ combined den comb (o' :: l) x b /\ comb a b y). split.
      * intros [a [b [H1 [H2 H3]]]]. apply IH in H2. destruct H2 as [ys [F T]]. exists (a :: ys). split; [constructor; auto|].
        inversion F; subst. simpl. eauto.
      * intros [ys [F T]]. inversion F as [|? a ? ys' F1 F2]; subst. inversion F2 as [|? a' ? ys'' F3 F4]; subst.
        destruct T as [b [T H]]. exists a, b. split; [exact F1|]. split; [|exact H]. apply IH. exists (a' :: ys''). auto.
Qed.
Lemma den_Add l x y : den (Add l) x y <-> combines den plus l x y. Proof. apply combined_combines. Qed.
Lemma den_Mul l x y : den (Mul l) x y <-> combines den times l x y. Proof. apply combined_combines. Qed.

(** ** Equal operators do the same *)
Lemma list_eqb_same {A} (eqb : A -> A -> bool) : (forall a b, eqb a b = true -> a = b) -> forall l l', list_eqb eqb l l' = true -> l = l'.
Proof.
  intros H. induction l as [|a l IH]; intros [|b l']; simpl; try discriminate; [reflexivity|].
  intros E. apply andb_prop in E. destruct E as [E1 E2]. f_equal; auto.
Qed.
Lemma list_eqb_Forall2 (l l' : list op) : list_eqb op_eqb l l' = true -> Forall (fun o => forall o', op_eqb o o' = true -> forall x y, den o x y <-> den o' x y) l ->
  Forall2 (fun o o' => forall x y, den o x y <-> den o' x y) l l'.
Proof.
  revert l'. induction l as [|a l IH]; intros [|b l']; simpl; try discriminate; [constructor|].
  intros E F. apply andb_prop in E. destruct E as [E1 E2]. inversion F; subst. constructor; auto.
Qed.
Lemma composes_equiv l l' : Forall2 (fun o o' => forall x y, den o x y <-> den o' x y) l l' -> forall x y, composes den l x y <-> composes den l' x y.
Proof.
  intros F. induction F as [|o o' l l' H F IH]; simpl; [tauto|]. intros x y. split; intros [z [A B]]; exists z; (split; [apply IH, A|apply H, B]).
Qed.
Lemma combines_equiv comb l l' : Forall2 (fun o o' => forall x y, den o x y <-> den o' x y) l l' -> forall x y, combines den comb l x y <-> combines den comb l' x y.
Proof.
  intros F x y. unfold combines. assert (H : forall ys, Forall2 (fun o a => den o x a) l ys <-> Forall2 (fun o a => den o x a) l' ys).
  { induction F as [|o o' l l' H F IH]; intros ys; [tauto|]. split; intros G; inversion G; subst; (constructor; [apply H; auto|apply IH; auto]). }
  split; intros [ys [A B]]; exists ys; (split; [apply H, A|exact B]).
Qed.
Lemma partition_eqb_same p q : partition_eqb p q = true -> p = q.
Proof.
  destruct p as [p|], q as [q|]; simpl; try discriminate; [|reflexivity]. intros E. f_equal. apply (list_eqb_same Nat.eqb); [|exact E]. intros a b. apply Nat.eqb_eq.
Qed.
Lemma Forall2_flip {A B} (R : A -> B -> Prop) l l' : Forall2 R l l' -> Forall2 (fun b a => R a b) l' l.
Proof. induction 1; constructor; auto. Qed.
Lemma map_implies (R : op -> op -> Prop) l l' : (forall o o' x y, R o o' -> den o x y -> den o' x y) -> Forall2 R l l' -> Forall2 implies (map den l) (map den l').
Proof. intros H F. induction F as [|o o' l l' Ho F IH]; simpl; [apply Forall2_nil|]. apply Forall2_cons; [|exact IH]. intros x y. apply H, Ho. Qed.
Lemma op_eqb_sound o : forall o', op_eqb o o' = true -> forall x y, den o x y <-> den o' x y.
Proof.
  pose proof (close_ok _ _ C) as Hc.
  induction o using op_induction; intros [] E x y; try discriminate E; cbn [CalcModel.op_eqb] in E.
  - apply (equal_ok _ _ C), E.
  - reflexivity.
  - apply Hc in E. subst. reflexivity.
  - reflexivity.
  - destruct c as [s|v], c0 as [t|w]; try discriminate E; simpl in E.
    + apply Hc in E. subst. reflexivity.
    + apply (list_eqb_same _ Hc) in E. subst. reflexivity.
  - apply (list_eqb_same _ Hc) in E. subst. reflexivity.
  - apply (list_eqb_same _ Bool.eqb_prop) in E. subst. reflexivity.
  - apply Nat.eqb_eq in E. subst. reflexivity.
  - apply list_eqb_Forall2 in E; auto. simpl. apply composes_equiv, E.
  - apply list_eqb_Forall2 in E; auto. rewrite !den_Add. apply combines_equiv, E.
  - apply list_eqb_Forall2 in E; auto. rewrite !den_Mul. apply combines_equiv, E.
  - apply andb_prop in E. destruct E as [E0 E]. apply andb_prop in E0. destruct E0 as [Ei Eo]. apply partition_eqb_same in Ei. apply partition_eqb_same in Eo. subst.
    apply list_eqb_Forall2 in E; auto. simpl. split; apply block_mono; [|apply Forall2_flip in E]; (eapply map_implies; [|exact E]); intros o1 o2 u v Q; apply (Q u v).
Qed.

(** ** Linear operators commute with scalars *)
Notation scal := (fun (k : K) => map (rmul k)).
Lemma scaling_ok : scaling (K := K) scal.
Proof.
  split.
  - intros x. rewrite <- (map_id x) at 2. apply map_ext. intros; ring.
  - intros a b x. rewrite map_map. apply map_ext. intros; ring.
Qed.
Lemma zip_scal_r k (d x : vec) : zip rmul d (map (rmul k) x) = map (rmul k) (zip rmul d x).
Proof. revert x. induction d as [|a d IH]; intros [|b x]; simpl; try reflexivity. rewrite !zip_cons, IH. f_equal. ring. Qed.
Lemma zip_plus_scal k (u v : vec) : zip radd (map (rmul k) u) (map (rmul k) v) = map (rmul k) (zip radd u v).
Proof. revert v. induction u as [|a u IH]; intros [|b v]; simpl; try reflexivity. rewrite !zip_cons, IH. simpl. f_equal. ring. Qed.
Lemma mask_scal k (m : list bool) (x : vec) : map (fun p => if fst p : bool then 0 else snd p) (combine m (map (rmul k) x))
  = map (rmul k) (map (fun p => if fst p : bool then 0 else snd p) (combine m x)).
Proof. revert x. induction m as [|b m IH]; intros [|a x]; simpl; try reflexivity. rewrite IH. f_equal. destruct b; ring. Qed.
Lemma map_repeat (f : K -> K) s n : map f (repeat s n) = repeat (f s) n.
Proof. induction n; simpl; congruence. Qed.
Lemma linear_homogeneous o : wf o -> linear o = true -> homogeneous scal (den o).
Proof.
  induction o using op_induction; intros W L; try discriminate L; cbn [CalcModel.linear] in L; intros k x y; cbn [CalcSpec.den].
  - apply (linear_ok _ _ C _ L).
  - split; [intros ->; exists x; auto|intros [y' [-> ->]]; reflexivity].
  - split.
    + intros ->. exists (map (rmul s) x). split; [reflexivity|]. rewrite !map_map. apply map_ext. intros; ring.
    + intros [y' [-> ->]]. rewrite !map_map. apply map_ext. intros; ring.
  - split.
    + intros [n ->]. exists (repeat 0 n). split; [exists n; reflexivity|]. rewrite map_repeat. f_equal. ring.
    + intros [y' [[n ->] ->]]. exists n. rewrite map_repeat. f_equal. ring.
  - rewrite map_length. split.
    + intros [E ->]. exists (zip rmul d x). split; [auto|]. apply zip_scal_r.
    + intros [y' [[E ->] ->]]. split; [exact E|]. symmetry. apply zip_scal_r.
  - rewrite map_length. split.
    + intros [E ->]. eexists. split; [split; [exact E|reflexivity]|]. apply mask_scal.
    + intros [y' [[E ->] ->]]. split; [exact E|]. symmetry. apply mask_scal.
  - apply wf_Comp in W. revert k x y. induction l as [|o l IHl]; intros k x y; cbn [composes].
    + split; [intros <-; exists x; auto|intros [y' [-> ->]]; reflexivity].
    + simpl in L. apply andb_prop in L. destruct L as [Lo Ll]. inversion H as [|? ? Ho Hl]; subst. inversion W as [|? ? Wo Wl]; subst. specialize (IHl Hl Wl Ll). specialize (Ho Wo Lo). split.
      * intros [z [A B]]. apply IHl in A. destruct A as [z' [A ->]]. apply Ho in B. destruct B as [y' [B ->]]. exists y'. split; [|reflexivity]. exists z'. auto.
      * intros [y' [[z [A B]] ->]]. exists (map (rmul k) z). split; [apply IHl; exists z; auto|]. apply Ho. exists y'. auto.
  - apply wf_Add in W. revert k x y. induction l as [|o l IHl]; intros k x y.
    + simpl. split; [tauto|intros [y' [[] _]]].
    + simpl in L. apply andb_prop in L. destruct L as [Lo Ll]. inversion H as [|? ? Ho Hl]; subst. inversion W as [|? ? Wo Wl]; subst. specialize (IHl Hl Wl Ll). specialize (Ho Wo Lo).
      destruct l as [|o' l]; [exact (Ho k x y)|].
      change (forall x y, combined den plus (o :: o' :: l) x y) with (forall x y, exists a b, den o x a /\ combined den plus (o' :: l) x b /\ plus a b y).
      split.
      * intros [a [b [A [B [E ->]]]]]. apply Ho in A. destruct A as [a' [A ->]]. apply IHl in B. destruct B as [b' [B ->]]. rewrite !map_length in E.
        exists (zip radd a' b'). split; [|apply zip_plus_scal]. exists a', b'. split; [exact A|]. split; [exact B|]. split; [exact E|reflexivity].
      * intros [y' [[a [b [A [B [E ->]]]]] ->]]. exists (map (rmul k) a), (map (rmul k) b). split; [apply Ho; eauto|]. split; [apply IHl; eauto|].
        split; [rewrite !map_length; exact E|]. symmetry. apply zip_plus_scal.
  - apply wf_Block in W. destruct W as [Wb W]. destruct (Hbk Wb) as [Hf _]. apply block_homogeneous. rewrite Forall_map, Forall_forall. intros o Ho.
    assert (Ll : forallb linear l = true) by (destruct po; [exact L|rewrite Hf in L; exact L]). rewrite forallb_forall in Ll. rewrite Forall_forall in H, W. auto.
Qed.

(** ** The constructors *)
(** The array as a vector of length n. *)
Definition at_len (a : arr) (n : nat) (v : vec) : Prop := match a with S0 s => v = repeat s n | V1 w => w = v /\ length w = n end.
Definition acts (a : arr) (x y : vec) : Prop := exists v, at_len a (length x) v /\ y = zip rmul v x.
Definition fills (a : arr) (y : vec) : Prop := exists n, at_len a n y.
Lemma at_len_length a n v : at_len a n v -> length v = n.
Proof. destruct a; simpl; [intros ->; apply repeat_length|intros [-> L]; exact L]. Qed.
Lemma zip_repeat_l (s : K) f (x : vec) : zip f (repeat s (length x)) x = map (f s) x.
Proof. induction x as [|a x IH]; simpl; [reflexivity|]. rewrite zip_cons, IH. reflexivity. Qed.
Lemma zip_repeat_r (s : K) f (x : vec) : zip f x (repeat s (length x)) = map (fun a => f a s) x.
Proof. induction x as [|a x IH]; simpl; [reflexivity|]. rewrite zip_cons, IH. reflexivity. Qed.
Lemma zip_repeat (s t : K) f n : zip f (repeat s n) (repeat t n) = repeat (f s t) n.
Proof. induction n; simpl; [reflexivity|]. rewrite zip_cons, IHn. reflexivity. Qed.
Lemma bcast_ok f a b c n u v : bcast f a b = Ok c -> at_len a n u -> at_len b n v -> at_len c n (zip f u v).
Proof.
  destruct a as [s|w], b as [t|w']; simpl.
  - intros [= <-] -> ->. simpl. apply zip_repeat.
  - intros [= <-] -> [-> L]. simpl. rewrite <- L, zip_repeat_l, map_length. auto.
  - intros [= <-] [-> L] ->. simpl. rewrite <- L, zip_repeat_r, map_length. auto.
  - intros E [-> L1] [-> L2]. rewrite L1, L2, Nat.eqb_refl in E. injection E as <-. simpl. rewrite zip_length. split; [reflexivity|lia].
Qed.
Lemma repeat_same (d : vec) s : forallb (fun b => keqb b s) d = true -> d = repeat s (length d).
Proof.
  induction d as [|a d IH]; simpl; [reflexivity|]. intros H. apply andb_prop in H. destruct H as [H1 H2]. apply keqb_true in H1. subst. f_equal. auto.
Qed.
Lemma all_same_repeat (d : vec) : all_same env d = true -> d = repeat (hd 0 d) (length d).
Proof. destruct d as [|a d]; simpl; [reflexivity|]. intros H. f_equal. apply repeat_same, H. Qed.
Lemma mkhomo_den s x : den (mkhomo s) x (map (rmul s) x).
Proof.
  unfold CalcModel.mkhomo. destruct (keqb s 0) eqn:E0; [|destruct (keqb s 1) eqn:E1].
  - apply keqb_true in E0. subst. simpl. exists (length x). rewrite <- (map_repeat (fun _ => 0) 0). induction x as [|a x IH]; simpl; [reflexivity|].
    rewrite IH. f_equal. ring.
  - apply keqb_true in E1. subst. simpl. symmetry. rewrite <- (map_id x) at 1. apply map_ext. intros; ring.
  - reflexivity.
Qed.
Lemma mkhomo_wf s : wf (mkhomo s).
Proof. unfold CalcModel.mkhomo. destruct (keqb s 0) eqn:E; [exact I|]. destruct (keqb s 1); [exact I|]. apply keqb_false, E. Qed.
Lemma mkdiag_wf a : wf (mkdiag a).
Proof.
  destruct a as [s|d]; [apply mkhomo_wf|]. simpl. destruct (forallb _ d); [exact I|]. destruct (forallb _ d); [exact I|].
  destruct (all_same _ d); [apply mkhomo_wf|]. destruct (forallb _ d); exact I.
Qed.
Lemma mkdiag_den a x y : acts a x y -> den (mkdiag a) x y.
Proof.
  intros [v [A ->]]. destruct a as [s|d]; simpl in A.
  - subst. rewrite zip_repeat_l. apply mkhomo_den.
  - destruct A as [-> L]. simpl.
    assert (R : forall s, v = repeat s (length v) -> zip rmul v x = map (rmul s) x) by (intros s E; rewrite E, L; apply zip_repeat_l).
    destruct (forallb (fun b => keqb b 0) v) eqn:E0; [|destruct (forallb (fun b => keqb b 1) v) eqn:E1; [|destruct (all_same env v) eqn:Es; [|destruct (forallb (fun b => keqb b 0 || keqb b 1) v) eqn:Em]]].
    + apply repeat_same in E0. rewrite (R _ E0). exists (length x). rewrite <- (map_repeat (fun _ => 0) 0). clear. induction x as [|a x IH]; simpl; [reflexivity|].
      rewrite IH. f_equal. ring.
    + apply repeat_same in E1. rewrite (R _ E1). simpl. rewrite <- (map_id x) at 2. apply map_ext. intros; ring.
    + apply all_same_repeat in Es. rewrite (R _ Es). apply mkhomo_den.
    + simpl. rewrite map_length. split; [exact L|]. clear - Em L C. revert x L. induction v as [|a v IH]; intros [|b x] L; simpl in *; try discriminate; [reflexivity|].
      apply andb_prop in Em. destruct Em as [Ea Em]. rewrite zip_cons, (IH Em x) by lia. f_equal. destruct (keqb a 0) eqn:Z.
      * apply keqb_true in Z. subst. ring.
      * apply keqb_true in Ea. subst. ring.
    + simpl. auto.
Qed.
Lemma mkconst_wf a o : mkconst a = Ok o -> wf o.
Proof.
  destruct a as [s|[|b d]]; simpl; [|discriminate|]; intros [= <-].
  - destruct (keqb s 0); exact I.
  - destruct (forallb _ d); [|exact I]. destruct (keqb b 0); exact I.
Qed.
Lemma mkconst_den a o x y : mkconst a = Ok o -> fills a y -> den o x y.
Proof.
  intros E [n A]. destruct a as [s|[|b d]]; simpl in *; [|discriminate|]; injection E as <-.
  - subst. destruct (keqb s 0) eqn:Z; [apply keqb_true in Z; subst|]; simpl; eauto.
  - destruct A as [<- L]. destruct (forallb _ d) eqn:S; [|reflexivity]. apply repeat_same in S.
    assert (R : b :: d = repeat b (length (b :: d))) by (simpl; congruence). destruct (keqb b 0) eqn:Z; [apply keqb_true in Z; subst|]; simpl; eauto.
Qed.
Lemma mkpower_wf n : wf (mkpower n).
Proof. destruct n as [|[|n]]; simpl; auto. lia. Qed.
Lemma mkpower_den n x : den (mkpower n) x (map (fun a => pow a n) x).
Proof.
  destruct n as [|[|n]]; simpl.
  - exists (length x). induction x; simpl; congruence.
  - rewrite <- (map_id x) at 2. apply map_ext. intros; ring.
  - reflexivity.
Qed.
(** Diagonal operators act as their data. *)
Lemma data_acts o a x y : subclass (class_of o) CDiagBase = true -> data o = Some a -> den o x y <-> acts a x y.
Proof.
  destruct o as [| |s| |c|d|m| | | | |]; simpl; try discriminate; intros _ [= <-]; unfold acts; simpl.
  - split; [intros ->; eexists; split; [reflexivity|]|intros [v [-> ->]]]; rewrite zip_repeat_l; [symmetry|]; rewrite <- (map_id x) at 2; apply map_ext; intros; ring.
  - split; [intros ->; eexists; split; [reflexivity|]|intros [v [-> ->]]]; rewrite zip_repeat_l; reflexivity.
  - split; [intros [L ->]; exists d; auto|intros [v [[-> L] ->]]; auto].
  - assert (Q : forall (m : list bool) (x : vec), zip rmul (map (fun b : bool => if b then 0 else 1) m) x = map (fun p => if fst p : bool then 0 else snd p) (combine m x)).
    { clear. induction m as [|b m IH]; intros [|a x]; simpl; try reflexivity. rewrite zip_cons, IH. f_equal. destruct b; ring. }
    rewrite map_length. split.
    + intros [L ->]. eexists. split; [split; [reflexivity|exact L]|]. symmetry. apply Q.
    + intros [v [[<- L] ->]]. split; [exact L|]. apply Q.
Qed.
Lemma data_fills o a x y : subclass (class_of o) CConstant = true -> data o = Some a -> den o x y -> fills a y.
Proof.
  destruct o as [| |s| |[s|v]|d|m| | | | |]; simpl; try discriminate; intros _ [= <-]; unfold fills; simpl.
  - intros [n ->]. exists n. reflexivity.
  - intros [n ->]. exists n. reflexivity.
  - intros ->. exists (length v). auto.
Qed.

(** ** The rules *)
Lemma signs_sq (d : vec) a : signs env d = true -> In a d -> a * a = 1.
Proof.
  unfold signs. rewrite forallb_forall. intros H Ha. specialize (H a Ha). apply orb_prop in H. destruct H as [H|H]; apply keqb_true in H; subst; ring.
Qed.
Lemma involutary_sound o : involutary env o = true -> cancels aden o o.
Proof.
  destruct o as [a| |s| |c|d|m| | | | |]; try discriminate; intros H x z y.
  - apply (involutary_ok _ _ C _ H).
  - simpl. congruence.
  - simpl. intros -> ->. rewrite map_map. rewrite <- (map_id x) at 2. apply map_ext. intros b.
    assert (E : s * s = 1) by (apply (signs_sq [s]); simpl; auto). transitivity (s * s * b); [ring|]. rewrite E. ring.
  - simpl in *. intros [L1 ->] [L2 ->]. clear L2. revert x L1. induction d as [|a d IH]; intros [|b x] L; simpl in *; try discriminate; [reflexivity|].
    rewrite !zip_cons. assert (E : a * a = 1) by (apply (signs_sq (a :: d)); simpl; auto). f_equal.
    + transitivity (a * a * b); [ring|]. rewrite E. ring.
    + apply IH; [|lia]. unfold signs in *. simpl in H. apply andb_prop in H. apply H.
Qed.
Lemma idempotent_sound o x z y : idempotent env o = true -> den o x z -> den o z y -> den o x y.
Proof.
  destruct o as [a| |s| |[s|v]|d|m| | | | |]; try discriminate; intros H.
  - apply (idempotent_ok _ _ C _ H).
  - simpl. congruence.
  - simpl. auto.
  - simpl. auto.
  - simpl. auto.
  - simpl. intros [L1 ->] [L2 ->]. split; [exact L1|]. clear L2. revert x L1. induction m as [|b m IH]; intros [|a x] L; simpl in *; try discriminate; [reflexivity|].
    rewrite IH by lia. f_equal. destruct b; reflexivity.
Qed.

Section Rules.
Variable bld : kind -> list op -> out op.
Hypothesis Hb : forall k ops o, (k = KAdd -> add_numbers env = true) -> Forall wf ops -> bld k ops = ret o -> wf o /\ forall x y, kind_den k ops x y -> den o x y.
Notation run := (run_rule env bld).
Definition sound2 (o1 o2 o : op) : Prop := wf o /\ forall x z y, den o2 x z -> den o1 z y -> den o x y.
Definition soundc (comb : vec -> vec -> vec -> Prop) (o1 o2 o : op) : Prop := wf o /\ forall x a b y, den o1 x a -> den o2 x b -> comb a b y -> den o x y.

Lemma some_ret {A} (m : out A) a : some m = ret (Some a) -> m = ret a.
Proof. unfold some. intros H. apply obind_ret in H. destruct H as [b [-> H]]. apply ret_inj in H. congruence. Qed.
Lemma lift_ret {A} (r : result A) a : lift r = ret a -> r = Ok a. Proof. unfold lift, ret. congruence. Qed.
Lemma broadcast_ret f mk o1 o2 (o : op) : rule_broadcast f mk o1 o2 = ret (Some o) ->
  exists a b c, data o1 = Some a /\ data o2 = Some b /\ bcast f a b = Ok c /\ mk c = Ok o.
Proof.
  unfold rule_broadcast. destruct (data o1) as [a|]; [|discriminate]. destruct (data o2) as [b|]; [|discriminate]. intros H.
  apply some_ret in H. apply obind_ret in H. destruct H as [c [H1 H2]]. exists a, b, c. auto using lift_ret.
Qed.
Lemma isinstance_sub (o : op) c : c <> CHomothety -> isinstance env o c = subclass (class_of o) c.
Proof.
  intros N. unfold isinstance, cls_eqb. destruct (cls_eq_dec c CHomothety); [contradiction|]. rewrite andb_false_r, orb_false_r. reflexivity.
Qed.

(** *** Composition *)
Lemma flag_sound o r : In (Set_ Composition r) (flag_calls env o) -> wf o ->
  reference cls_eqb r = true /\ forall o1 n, run r o1 o = ret (Some n) -> sound2 o1 o n.
Proof.
  intros H W. unfold flag_calls in H. rewrite !in_app_iff in H.
  assert (Sym : forall s, r = {| subjects := (Str s, Str Dot); predicate := ROne |} -> s <> Dot ->
     (forall p, associated env o s = Some p -> cancels aden o p) -> reference cls_eqb r = true /\ forall o1 n, run r o1 o = ret (Some n) -> sound2 o1 o n).
  { intros s -> N Hp. split; [reflexivity|]. intros o1 n. unfold run_rule. cbn.
    assert (E : match s with Dot => op_eqb o1 o | _ => match associated env o s with Some p => op_eqb o1 p | None => false end end
       = match associated env o s with Some p => op_eqb o1 p | None => false end) by (destruct s; congruence). rewrite E.
    destruct (associated env o s) as [p|] eqn:A; [|discriminate]. destruct (op_eqb o1 p) eqn:Q; [|discriminate].
    intros H1. apply ret_inj in H1. injection H1 as <-. split; [exact I|]. intros x z y H1 H2. apply (op_eqb_sound _ _ Q) in H2. simpl. eapply Hp; eauto. }
  destruct H as [[H|[]]|[H|[H|[H|H]]]].
  - injection H as <-. apply (Sym SI); [reflexivity|discriminate|]. apply (inverse_ok _ _ C).
  - destruct (orthogonal env o) eqn:Q; [|destruct H]. destruct H as [H|[]]. injection H as <-. apply (Sym ST); [reflexivity|discriminate|]. intros p. apply (transpose_ok _ _ C _ _ Q).
  - destruct (unitary env o) eqn:Q; [|destruct H]. destruct H as [H|[]]. injection H as <-. apply (Sym SH); [reflexivity|discriminate|]. intros p. apply (adjoint_ok _ _ C _ _ Q).
  - destruct (idempotent env o) eqn:Q; [|destruct H]. destruct H as [H|[]]. injection H as <-. split; [reflexivity|]. intros o1 n. unfold run_rule. cbn.
    destruct (op_eqb o1 o) eqn:E; [|discriminate]. intros H1. apply ret_inj in H1. injection H1 as <-. split; [exact W|]. intros x z y H1 H2.
    apply (op_eqb_sound _ _ E) in H2. eapply idempotent_sound; eauto.
  - destruct (involutary env o) eqn:Q; [|destruct H]. destruct H as [H|[]]. injection H as <-. split; [reflexivity|]. intros o1 n. unfold run_rule. cbn.
    destruct (op_eqb o1 o) eqn:E; [|discriminate]. intros H1. apply ret_inj in H1. injection H1 as <-. split; [exact I|]. intros x z y H1 H2.
    apply (op_eqb_sound _ _ E) in H2. simpl. eapply involutary_sound; eauto.
Qed.
Lemma comp_diag_sound o1 o2 o : subclass (class_of o1) CDiagBase = true -> subclass (class_of o2) CDiagBase = true ->
  predicate_of env bld RCompDiag o1 o2 = ret (Some o) -> sound2 o1 o2 o.
Proof.
  intros D1 D2 H. apply broadcast_ret in H. destruct H as [a [b [c [A [B [E [= <-]]]]]]]. split; [apply mkdiag_wf|].
  intros x z y H2 H1. apply (data_acts _ _ _ _ D1 A) in H1. apply (data_acts _ _ _ _ D2 B) in H2. destruct H2 as [v [V ->]]. destruct H1 as [u [U ->]].
  assert (L : length (zip rmul v x) = length x) by (rewrite zip_length, (at_len_length _ _ _ V); lia). rewrite L in U.
  apply mkdiag_den. exists (zip rmul u v). split; [eapply bcast_ok; eauto|]. apply zip_assoc. intros; ring.
Qed.
Lemma const_right_sound o1 c o : predicate_of env bld RConstR o1 (Const c) = ret (Some o) -> sound2 o1 (Const c) o.
Proof.
  cbn [predicate_of]. destruct (is_unconstrained env o1) eqn:U; [discriminate|]. destruct c as [s|v].
  - destruct (explicit_shapein env o1) as [n|] eqn:N; [|discriminate]. intros H. apply some_ret in H. apply obind_ret in H. destruct H as [y0 [H1 H2]].
    apply lift_ret in H1. apply lift_ret in H2. split; [eapply mkconst_wf; eauto|]. intros x z y [m ->] H3. eapply mkconst_den; [exact H2|].
    exists (length y0). simpl. split; [|reflexivity]. apply (constrained_ok _ _ C o1 (repeat s n)); auto.
    + apply (call_ok _ _ C). exact H1.
    + pose proof (shapein_ok _ _ C _ _ _ _ N H3) as L. rewrite repeat_length in L. subst. exact H3.
  - intros H. apply some_ret in H. apply obind_ret in H. destruct H as [y0 [H1 H2]].
    apply lift_ret in H1. apply lift_ret in H2. split; [eapply mkconst_wf; eauto|]. intros x z y -> H3. eapply mkconst_den; [exact H2|].
    exists (length y0). simpl. split; [|reflexivity]. apply (constrained_ok _ _ C o1 v); auto. apply (call_ok _ _ C). exact H1.
Qed.
Lemma zero_right_sound o1 o : wf o1 -> predicate_of env bld RZeroR o1 Zero = ret (Some o) -> sound2 o1 Zero o.
Proof.
  intros W1. cbn [predicate_of]. destruct (linear o1) eqn:L.
  - intros H. apply ret_inj in H. injection H as <-. split; [exact I|]. intros x z y [n ->] H. simpl.
    assert (E : repeat 0 n = map (rmul 0) (repeat 0 n)) by (rewrite map_repeat; f_equal; ring). rewrite E in H. apply (linear_homogeneous _ W1 L) in H.
    destruct H as [y' [_ ->]]. exists (length y'). clear. induction y' as [|a y' IH]; simpl; [reflexivity|]. rewrite IH. f_equal. ring.
  - destruct (is_unconstrained env o1) eqn:U; [discriminate|]. destruct (explicit_shapein env o1) as [n|] eqn:N; [|discriminate].
    intros H. apply some_ret in H. apply obind_ret in H. destruct H as [y0 [H1 H2]].
    apply lift_ret in H1. apply lift_ret in H2. split; [eapply mkconst_wf; eauto|]. intros x z y [m ->] H3. eapply mkconst_den; [exact H2|].
    exists (length y0). simpl. split; [|reflexivity]. apply (constrained_ok _ _ C o1 (repeat 0 n)); auto.
    + apply (call_ok _ _ C). exact H1.
    + pose proof (shapein_ok _ _ C _ _ _ _ N H3) as L'. rewrite repeat_length in L'. subst. exact H3.
Qed.
Lemma pow_mul a m n : pow (pow (K := K) a n) m = pow a (m * n).
Proof.
  assert (P : forall m n, pow a (m + n) = pow a m * pow a n) by (clear; induction m; intros n; simpl; [ring|rewrite IHm; ring]).
  induction m as [|m IH]; simpl; [reflexivity|]. rewrite IH, P. reflexivity.
Qed.
Lemma pow_add a m n : pow (K := K) a (m + n) = pow a m * pow a n.
Proof. induction m; simpl; [ring|rewrite IHm; ring]. Qed.
Lemma absorb_sound o1 o2 o : isinstance env o2 CHomothety = true -> predicate_of env bld RAbsorb o1 o2 = ret (Some o) -> sound2 o1 o2 o.
Proof.
  intros Hi. cbn [predicate_of]. destruct o1 as [a| | | | | | | | | | |]; try discriminate. destruct (data o2) as [[d|]|] eqn:D; try discriminate.
  destruct (a_absorb env a) as [f|] eqn:A; [|discriminate]. intros H. apply ret_inj in H. injection H as <-. split; [exact I|].
  intros x z y H2 H1. simpl in H1 |- *. unfold isinstance in Hi. destruct o2 as [| |s| |c| | | | | | |]; simpl in D, Hi; try discriminate; try (rewrite andb_false_r in Hi; discriminate Hi); injection D as <-.
  - simpl in H2. subst. apply (absorb_ok _ _ C _ _ A). rewrite (scal_1 _ scaling_ok). exact H1.
  - simpl in H2. subst. apply (absorb_ok _ _ C _ _ A), H1.
  - destruct H2 as [n ->]. apply (absorb_zero_ok _ _ C) with (a := a) (n := n); auto. destruct (zero_too env); [reflexivity|discriminate].
Qed.
Lemma composes2 o1 o2 x y : composes den [o1; o2] x y <-> exists z, den o2 x z /\ den o1 z y.
Proof. simpl. split; [intros [z [[w [-> H1]] H2]]; eauto|intros [z [H1 H2]]; exists z; split; [exists x; auto|auto]]. Qed.
Lemma build_comp_sound ops o : Forall wf ops -> bld KComp ops = ret o -> wf o /\ forall x y, composes den ops x y -> den o x y.
Proof. intros W H. apply (Hb KComp); auto. discriminate. Qed.

(** *** Block operators *)
Lemma run_predicate r o1 o2 n : predicate r <> RDot -> run r o1 o2 = ret (Some n) -> predicate_of env bld (predicate r) o1 o2 = ret (Some n).
Proof. intros N. unfold run_rule. match goal with |- (if ?b then _ else _) = _ -> _ => destruct b end; [|discriminate]. destruct (predicate r); congruence. Qed.
Lemma mapo_ret {A B} (f : A -> out B) l : forall l', mapo f l = ret l' -> Forall2 (fun a b => f a = ret b) l l'.
Proof.
  induction l as [|a l IH]; cbn [mapo]; intros l' E; [apply ret_inj in E; subst; constructor|].
  apply obind_ret in E. destruct E as [b [E1 E]]. apply obind_ret in E. destruct E as [r [E2 E]]. apply ret_inj in E. subst. constructor; auto.
Qed.
Definition krel (k : kind) (r1 r2 : vec -> vec -> Prop) : vec -> vec -> Prop :=
  match k with KComp => comp_rel r1 r2 | KAdd => comb_rel radd r1 r2 | KMul => comb_rel rmul r1 r2 end.
Lemma krel_kind k o1 o2 x y : krel k (den o1) (den o2) x y -> kind_den k [o1; o2] x y.
Proof.
  destruct k; simpl.
  - intros [z [H1 H2]]. exists z. split; [exists x; auto|exact H2].
  - intros [a [b [H1 [H2 [L ->]]]]]. apply combined_combines. simpl. exists a, b. unfold plus. auto.
  - intros [a [b [H1 [H2 [L ->]]]]]. apply combined_combines. simpl. exists a, b. unfold times. auto.
Qed.
Lemma built_pairs k l1 l2 l : (k = KAdd -> add_numbers env = true) -> Forall wf l1 -> Forall wf l2 ->
  mapo (fun p => bld k [fst p; snd p]) (combine l1 l2) = ret l -> Forall wf l /\ Forall2 implies (pairs (krel k) (map den l1) (map den l2)) (map den l).
Proof.
  intros N W1 W2 E. apply mapo_ret in E. revert l2 l W2 E. induction W1 as [|o1 l1 Wo W1 IH]; intros l2 l W2 E.
  - inversion E; subst. split; constructor.
  - destruct W2 as [|o2 l2 Wo2 W2]; [inversion E; subst; split; constructor|]. simpl in E. inversion E as [|? o ? l' Eo El]; subst.
    destruct (IH _ _ W2 El) as [A B]. apply Hb in Eo; [|exact N|simpl; auto]. destruct Eo as [C1 C2]. split; [constructor; auto|].
    constructor; [|exact B]. intros x y H. apply C2, krel_kind, H.
Qed.
Lemma blockwise_sound k pi po l1 l2 n : bk = true -> Forall wf l1 -> Forall wf l2 -> blockwise bld k pi po l1 l2 = ret (Some n) ->
  wf n /\ forall x y, block_rel pi po (pairs (krel k) (map den l1) (map den l2)) x y -> den n x y.
Proof.
  intros Eb W1 W2 E. apply some_ret, obind_ret in E. destruct E as [l [E1 E]]. apply built_pairs in E1; [|intros _; apply Hbk, Eb|auto|auto].
  destruct E1 as [W I1]. assert (Q : wf n /\ forall x y, block_rel pi po (map den l) x y -> den n x y).
  { assert (Q : ret (Block pi po l) = ret n -> wf n /\ forall x y, block_rel pi po (map den l) x y -> den n x y).
    { intros Q. apply ret_inj in Q. subst n. split; [apply wf_Block; auto|auto]. }
    unfold mkblock in E. destruct l as [|o [|o' l]].
    - destruct pi, po; auto. discriminate E.
    - apply ret_inj in E. subst n. split; [inversion W; auto|]. intros x y. apply block_single.
    - destruct pi, po; auto. discriminate E. }
  destruct Q as [Wn Q]. split; [exact Wn|]. intros x y H. apply Q. revert H. apply block_mono, I1.
Qed.
(** Separable operators act on each piece. *)
Lemma piecewise_comb f l : (forall r, In r l -> piecewise (den r)) -> piecewise (fun x y => combined den (fun a b y => length a = length b /\ y = zip f a b) l x y).
Proof.
  induction l as [|o l IH]; intros Hl; [intros x y []|]. assert (Ho : piecewise (den o)) by (apply Hl; simpl; auto).
  destruct l as [|o' l]; [exact Ho|]. assert (Hr : forall r, In r (o' :: l) -> piecewise (den r)) by (intros; apply Hl; simpl in *; auto).
  specialize (IH Hr). set (c := combined den (fun a b y => length a = length b /\ y = zip f a b) (o' :: l)) in *.
  change (piecewise (fun x y => exists a b, den o x a /\ c x b /\ length a = length b /\ y = zip f a b)).
  intros x y [a [b [H1 [H2 [L ->]]]]]. destruct (Ho _ _ H1) as [La Pa]. destruct (IH _ _ H2) as [Lb Pb]. split; [rewrite zip_length; lia|].
  intros x1 x2 Ex. destruct (Pa _ _ Ex) as [a1 [a2 [-> [A1 [A2 A3]]]]]. destruct (Pb _ _ Ex) as [b1 [b2 [-> [B1 [B2 B3]]]]].
  rewrite !app_length in L. exists (zip f a1 b1), (zip f a2 b2). split; [apply zip_app; lia|].
  split; [exists a1, b1; repeat (split; [solve [auto|lia]|]); reflexivity|]. split; [exists a2, b2; repeat (split; [solve [auto|lia]|]); reflexivity|].
  rewrite zip_length. lia.
Qed.
Lemma separable_piecewise o : separable env o = true -> piecewise (den o).
Proof.
  induction o using op_induction; intros S; try discriminate S; cbn [CalcModel.separable] in S.
  - apply (separable_ok _ _ C _ S).
  - intros x y ->. split; [apply map_length|]. intros x1 x2 ->. exists (map (fun a => pow a n) x1), (map (fun a => pow a n) x2). rewrite map_app, map_length. simpl. auto.
  - cbn [CalcSpec.den]. induction l as [|o l IHl].
    + intros x y <-. split; [reflexivity|]. intros x1 x2 ->. exists x1, x2. simpl. auto.
    + simpl in S. apply andb_prop in S. destruct S as [So Sl]. inversion H as [|? ? Ho Hl]; subst. specialize (IHl Hl Sl). specialize (Ho So).
      intros x y [z [H1 H2]]. destruct (IHl _ _ H1) as [L1 P1]. destruct (Ho _ _ H2) as [L2 P2]. split; [lia|]. intros x1 x2 Ex.
      destruct (P1 _ _ Ex) as [z1 [z2 [Ez [A1 [A2 A3]]]]]. destruct (P2 _ _ Ez) as [y1 [y2 [Ey [B1 [B2 B3]]]]]. exists y1, y2. simpl. split; [exact Ey|].
      split; [exists z1; auto|]. split; [exists z2; auto|lia].
  - apply (piecewise_comb radd). rewrite forallb_forall in S. rewrite Forall_forall in H. auto.
  - apply (piecewise_comb rmul). rewrite forallb_forall in S. rewrite Forall_forall in H. auto.
Qed.
(** Diagonal operators act on each piece with the corresponding data. *)
Lemma lift_all {A} (l : list (result A)) s : mapo lift l = ret s -> l = map Ok s.
Proof.
  intros E. apply mapo_ret in E. induction E as [|a b l s E F IH]; [reflexivity|]. simpl. rewrite IH. f_equal. apply lift_ret, E.
Qed.
Lemma map_Ok_inj {A} (l l' : list A) : map Ok l = map Ok l' -> l = l'.
Proof. revert l'. induction l as [|a l IH]; intros [|b l']; simpl; try discriminate; [reflexivity|]. intros [= -> E]. f_equal. auto. Qed.
Lemma map_repeat_const {A B} (f : A) (l : list B) : map (fun _ => f) l = repeat f (length l).
Proof. induction l; simpl; congruence. Qed.
Lemma map_den_repeat o n : map den (repeat o n) = repeat (den o) n.
Proof. induction n; simpl; congruence. Qed.
Lemma mkmask_wf m : wf (mkmask m).
Proof. unfold mkmask. destruct (forallb negb m); [exact I|]. destruct (forallb _ m); exact I. Qed.
Lemma mkmask_den m x y : den (Mask m) x y -> den (mkmask m) x y.
Proof.
  unfold mkmask. destruct (forallb negb m) eqn:E1; [|destruct (forallb (fun b => b) m) eqn:E2; [|auto]]; intros [L ->].
  - simpl. revert x L. induction m as [|b m IH]; intros [|a x] L; simpl in *; try discriminate; [reflexivity|]. apply andb_prop in E1. destruct E1 as [Eb E1].
    rewrite (IH E1) by lia. destruct b; [discriminate|reflexivity].
  - exists (length x). revert x L. clear E1. induction m as [|b m IH]; intros [|a x] L; simpl in *; try discriminate; [reflexivity|]. apply andb_prop in E2. destruct E2 as [Eb E2].
    rewrite (IH E2) by lia. destruct b; [reflexivity|discriminate].
Qed.
Lemma sliced_diag o p s : wf o -> is_diag o = true -> mapo lift (sliced env o p) = ret s ->
  Forall wf s /\ forall x y, den o x y -> length x = list_sum p -> diag_rel (map den s) p p x y.
Proof.
  intros W D E. apply lift_all in E. assert (Rep : piecewise (den o) -> map (fun _ => Ok o) p = map Ok s -> Forall wf s /\ forall x y, den o x y -> length x = list_sum p -> diag_rel (map den s) p p x y).
  { intros Hp Q. assert (Es : s = repeat o (length p)) by (rewrite <- map_repeat_const; apply map_Ok_inj; rewrite map_map; auto). subst s. split.
    - apply Forall_forall. intros o' Ho. apply repeat_spec in Ho. subst o'. exact W.
    - intros x y H L. rewrite map_den_repeat. apply piecewise_diag; auto. }
  destruct o as [a| |s'| |c|d|m|q|l|l|l|pi po l]; try discriminate D; cbn [sliced] in E.
  - apply Rep; [|exact E]. intros x y ->. split; [reflexivity|]. intros x1 x2 ->. exists x1, x2. simpl. auto.
  - apply Rep; [|exact E]. intros x y ->. split; [apply map_length|]. intros x1 x2 ->. exists (map (rmul s') x1), (map (rmul s') x2). rewrite map_app, map_length. simpl. auto.
  - rewrite <- (map_map (fun v => mkdiag (V1 v)) Ok) in E. apply map_Ok_inj in E. subst s. split.
    + apply Forall_map, Forall_forall. intros v _. apply mkdiag_wf.
    + intros x y H L. set (r := fun (d x y : vec) => length d = length x /\ y = zip rmul d x). assert (Q : diag_rel (map r (pieces p d)) p p x y).
      { apply pieces_diag; auto; unfold r.
        - intros d' x' y' [L' ->]. rewrite zip_length. lia.
        - intros d1 d2 x1 x2 y' L1 [L' ->]. rewrite !app_length in L'. exists (zip rmul d1 x1), (zip rmul d2 x2). rewrite zip_app by exact L1. split; [reflexivity|]. split; (split; [lia|reflexivity]). }
      revert Q. apply diag_mono. rewrite map_map. clear - C. induction (pieces p d) as [|v l IH]; simpl; constructor; auto.
      intros x y [L ->]. apply (mkdiag_den (V1 v)). exists v. simpl. auto.
  - rewrite <- (map_map mkmask Ok) in E. apply map_Ok_inj in E. subst s. split.
    + apply Forall_map, Forall_forall. intros v _. apply mkmask_wf.
    + intros x y H L. assert (Q : diag_rel (map (fun m => den (Mask m)) (pieces p m)) p p x y).
      { apply (pieces_diag (fun m => den (Mask m))); auto; cbn [CalcSpec.den].
        - intros d' x' y' [L' ->]. rewrite map_length, combine_length. lia.
        - intros d1 d2 x1 x2 y' L1 [L' ->]. rewrite !app_length in L'. do 2 eexists. split; [|split; (split; [|reflexivity]); lia].
          rewrite <- map_app. f_equal. clear - L1. revert x1 L1. induction d1 as [|b d1 IH]; intros [|a x1] L1; simpl in *; try discriminate; [reflexivity|]. rewrite IH by lia. reflexivity. }
      revert Q. apply diag_mono. rewrite map_map. clear. induction (pieces p m) as [|v l IH]; simpl; constructor; auto.
      intros x y. apply mkmask_den.
  - destruct pi, po; discriminate D.
Qed.
Lemma diag_length o x y : is_diag o = true -> den o x y -> length y = length x.
Proof.
  destruct o as [a| |s'| |c|d|m|q|l|l|l|pi po l]; intros D; try discriminate D; cbn [CalcSpec.den].
  - intros ->. reflexivity.
  - intros ->. apply map_length.
  - intros [L ->]. rewrite zip_length. lia.
  - intros [L ->]. rewrite map_length, combine_length. lia.
  - destruct pi, po; discriminate D.
Qed.
(** Constant operators give each piece of their output. *)
Lemma pieces_repeat {A} (a : A) p : forall n, n = list_sum p -> pieces p (repeat a n) = map (repeat a) p.
Proof.
  induction p as [|m p IH]; intros n ->; simpl; [reflexivity|]. f_equal.
  - induction m; simpl; [reflexivity|]. f_equal. exact IHm.
  - rewrite <- (IH (list_sum p)) by reflexivity. f_equal. induction m; simpl; auto.
Qed.
Lemma sliced_const o p s : wf o -> subclass (class_of o) CConstant = true -> mapo lift (sliced env o p) = ret s ->
  Forall wf s /\ forall x y, den o x y -> length y = list_sum p -> Forall2 (fun (r : vec -> vec -> Prop) y => forall x, r x y) (map den s) (pieces p y).
Proof.
  intros W D E. apply lift_all in E. assert (Rep : forall a, (forall n x, den o x (repeat a n)) -> (forall x y, den o x y -> exists n, y = repeat a n) -> map (fun _ => Ok o) p = map Ok s ->
    Forall wf s /\ forall x y, den o x y -> length y = list_sum p -> Forall2 (fun (r : vec -> vec -> Prop) y => forall x, r x y) (map den s) (pieces p y)).
  { intros a H1 H2 Q. assert (Es : s = repeat o (length p)) by (rewrite <- map_repeat_const; apply map_Ok_inj; rewrite map_map; auto). subst s. split.
    - apply Forall_forall. intros o' Ho. apply repeat_spec in Ho. subst o'. exact W.
    - intros x y H L. destruct (H2 _ _ H) as [n ->]. rewrite repeat_length in L. rewrite (pieces_repeat _ _ _ L), map_den_repeat. clear - H1.
      induction p as [|m p IH]; simpl; constructor; auto. }
  destruct o as [a| |s'| |[c|v]|d|m|q|l|l|l|pi po l]; try discriminate D; cbn [sliced] in E.
  - apply (Rep 0); [simpl; eauto|simpl; auto|exact E].
  - apply (Rep c); [simpl; eauto|simpl; auto|exact E].
  - assert (F : Forall2 (fun w o => mkconst (V1 w) = Ok o) (pieces p v) s).
    { clear - E. revert s E. induction (pieces p v) as [|w l IH]; intros [|o s] E; simpl in E; try discriminate; [constructor|]. injection E as E1 E2. constructor; auto. }
    split.
    + clear - F C. induction F; constructor; [eapply mkconst_wf; eauto|auto].
    + intros x y -> L. clear - F C. induction F as [|w o l s E F IH]; simpl; constructor; auto.
      intros x. eapply mkconst_den; [exact E|]. exists (length w). simpl. auto.
  - destruct pi, po; discriminate D.
Qed.
Lemma block_left_sound o1 o2 n : wf o1 -> wf o2 -> predicate_of env bld RBlockL o1 o2 = ret (Some n) -> sound2 o1 o2 n.
Proof.
  intros W1 W2. cbn [predicate_of]. destruct o2 as [| | | | | | | | | | |pi po l]; try discriminate. destruct po as [po|]; [|discriminate].
  apply wf_Block in W2. destruct W2 as [Wb W2]. unfold may_slide. rewrite (proj1 (Hbk Wb)). cbn [negb orb].
  destruct (is_diag o1) eqn:D; [|discriminate]. intros E. apply obind_ret in E. destruct E as [s [E1 E]]. destruct (sliced_diag _ _ _ W1 D E1) as [Ws S].
  apply blockwise_sound in E; auto. destruct E as [Wn E]. split; [exact Wn|]. intros x z y H2 H1. apply E. destruct pi as [pi|]; simpl in H2 |- *.
  - apply S in H1; [|apply diag_lengths in H2; apply H2]. eapply diag_diag; eauto.
  - apply S in H1; [|apply col_lengths in H2; apply H2]. eapply diag_col; eauto.
Qed.
Lemma block_right_sound o1 o2 n : wf o1 -> wf o2 -> predicate_of env bld RBlockR o1 o2 = ret (Some n) -> sound2 o1 o2 n.
Proof.
  intros W1 W2. cbn [predicate_of]. destruct o1 as [| | | | | | | | | | |pi po l]; try discriminate. destruct pi as [pi|]; [|discriminate].
  apply wf_Block in W1. destruct W1 as [Wb W1]. unfold may_slide. rewrite (proj1 (Hbk Wb)). cbn [negb orb].
  destruct (is_diag o2) eqn:D; [|discriminate]. intros E. apply obind_ret in E. destruct E as [s [E1 E]]. destruct (sliced_diag _ _ _ W2 D E1) as [Ws S].
  apply blockwise_sound in E; auto. destruct E as [Wn E]. split; [exact Wn|]. intros x z y H2 H1. apply E. pose proof (diag_length _ _ _ D H2) as L.
  destruct po as [po|]; simpl in H1 |- *.
  - apply S in H2; [|apply diag_lengths in H1; lia]. eapply diag_diag; eauto.
  - apply S in H2; [|apply row_lengths in H1; lia]. eapply row_diag; eauto.
Qed.
Lemma sep_left_sound o1 o2 n : wf o1 -> wf o2 -> predicate_of env bld RSepL o1 o2 = ret (Some n) -> sound2 o1 o2 n.
Proof.
  intros W1 W2. cbn [predicate_of]. destruct o2 as [| | | | | | | | | | |pi po l]; try discriminate. destruct po as [po|]; [|discriminate].
  apply wf_Block in W2. destruct W2 as [Wb W2]. destruct (negb (is_block o1)); [|discriminate]. destruct (separable env o1) eqn:S; [|discriminate]. intros E.
  apply separable_piecewise in S. apply blockwise_sound in E; auto.
  2:{ apply Forall_forall. intros o' Ho. apply repeat_spec in Ho. subst o'. exact W1. }
  destruct E as [Wn E]. split; [exact Wn|]. intros x z y H2 H1. apply E. rewrite map_den_repeat. destruct pi as [pi|]; simpl in H2 |- *.
  - pose proof (diag_lengths _ _ _ _ _ H2) as [_ [L2 [_ L3]]]. rewrite map_length in L3. rewrite <- L3. apply (diag_diag _ _ pi po po x z y H2). apply piecewise_diag; auto.
  - pose proof (col_lengths _ _ _ _ H2) as [L2 L3]. rewrite map_length in L3. rewrite <- L3. apply (diag_col _ _ po po x z y H2). apply piecewise_diag; auto.
Qed.
Lemma sep_right_sound o1 o2 n : wf o1 -> wf o2 -> predicate_of env bld RSepR o1 o2 = ret (Some n) -> sound2 o1 o2 n.
Proof.
  intros W1 W2. cbn [predicate_of]. destruct o1 as [| | | | | | | | | | |pi po l]; try discriminate. destruct pi as [pi|]; [|discriminate].
  apply wf_Block in W1. destruct W1 as [Wb W1]. destruct (separable env o2) eqn:S; [|discriminate]. intros E.
  apply separable_piecewise in S. apply blockwise_sound in E; auto.
  2:{ apply Forall_forall. intros o' Ho. apply repeat_spec in Ho. subst o'. exact W2. }
  destruct E as [Wn E]. split; [exact Wn|]. intros x z y H2 H1. apply E. rewrite map_den_repeat. pose proof (proj1 (S _ _ H2)) as L. destruct po as [po|]; simpl in H1 |- *.
  - pose proof (diag_lengths _ _ _ _ _ H1) as [L2 [_ [L3 _]]]. rewrite map_length in L3. rewrite <- L3. eapply diag_diag; [|exact H1]. apply piecewise_diag; auto. lia.
  - pose proof (row_lengths _ _ _ _ H1) as [L2 L3]. rewrite map_length in L3. rewrite <- L3. eapply row_diag; [|exact H1]. apply piecewise_diag; auto. lia.
Qed.
Lemma sum_combined l : forall x y, sum_rel (map den l) x y -> combined den plus l x y.
Proof.
  induction l as [|o l IH]; intros x y; [auto|]. destruct l as [|o' l]; [auto|].
  intros [a [b [H1 [H2 H3]]]]. exists a, b. split; [exact H1|]. split; [apply IH, H2|exact H3].
Qed.
Lemma sum_mono (rs rs' : list (vec -> vec -> Prop)) : Forall2 implies rs rs' -> forall x y, sum_rel rs x y -> sum_rel rs' x y.
Proof.
  induction 1 as [|r r' rs rs' H F IH]; intros x y; [auto|]. destruct F as [|s s' ss ss' Hs Fs]; [apply H|].
  intros [a [b [H1 [H2 H3]]]]. exists a, b. split; [apply H, H1|]. split; [apply IH, H2|exact H3].
Qed.
Lemma block_comp_sound o1 o2 n : wf o1 -> wf o2 -> predicate_of env bld RBlockComp o1 o2 = ret (Some n) -> sound2 o1 o2 n.
Proof.
  intros W1 W2. cbn [predicate_of]. destruct o1 as [| | | | | | | | | | |pi1 po l]; try discriminate. destruct pi1 as [p|]; [|discriminate].
  destruct o2 as [| | | | | | | | | | |pi po2 l']; try discriminate. destruct po2 as [q|]; [|discriminate].
  destruct (list_eqb Nat.eqb p q) eqn:Q; [|discriminate]. apply list_eqb_same in Q; [|intros a b; apply Nat.eqb_eq]. subst q.
  apply wf_Block in W1. apply wf_Block in W2. destruct W1 as [Wb W1]. destruct W2 as [_ W2]. intros E.
  assert (Bw : blockwise bld KComp pi po l l' = ret (Some n) -> sound2 (Block (Some p) po l) (Block pi (Some p) l') n \/ pi = None /\ po = None).
  { intros B. destruct pi as [pi|]; [left|destruct po as [po|]; [left|right; auto]]; (apply blockwise_sound in B; auto; destruct B as [Wn B]; split; [exact Wn|]; intros x z y H2 H1; apply B).
    - destruct po as [po|]; simpl in *; [eapply diag_diag|eapply row_diag]; eauto.
    - simpl in *. eapply diag_col; eauto. }
  destruct pi as [pi|]; [destruct (Bw E) as [S|[S _]]; [exact S|discriminate]|].
  destruct po as [po|]; [destruct (Bw E) as [S|[_ S]]; [exact S|discriminate]|].
  apply some_ret, obind_ret in E. destruct E as [l'' [E1 E]]. apply built_pairs in E1; [|discriminate|auto|auto]. destruct E1 as [W I1].
  apply Hb in E; [|intros _; apply Hbk, Wb|exact W]. destruct E as [Wn E]. split; [exact Wn|]. intros x z y H2 H1. apply E. simpl. apply combined_combines.
  apply sum_combined. revert I1. intros I1. eapply sum_mono; [exact I1|]. simpl in *. eapply row_col; eauto.
Qed.

Lemma comp_call_sound o r : In (Set_ Composition r) (calls env o) -> wf o ->
  (reference cls_eqb r = false -> forall o2 n, wf o2 -> run r o o2 = ret (Some n) -> sound2 o o2 n)
  /\ (reference cls_eqb r = true -> forall o1 n, wf o1 -> run r o1 o = ret (Some n) -> sound2 o1 o n).
Proof.
  intros H W. unfold calls in H. apply in_app_iff in H. destruct H as [H|H].
  { destruct (flag_sound o r H W) as [R Q]. rewrite R. split; [discriminate|]. intros _ o1 n _. apply Q. }
  assert (BL : forall s, r = {| subjects := s; predicate := RBlockL |} -> forall o2 n, wf o2 -> run r o o2 = ret (Some n) -> sound2 o o2 n).
  { intros s -> o2 n W2 E. apply run_predicate in E; [|discriminate]. cbn [predicate] in E. apply block_left_sound; auto. }
  assert (BR : forall s, r = {| subjects := s; predicate := RBlockR |} -> forall o1 n, wf o1 -> run r o1 o = ret (Some n) -> sound2 o1 o n).
  { intros s -> o1 n W1 E. apply run_predicate in E; [|discriminate]. cbn [predicate] in E. apply block_right_sound; auto. }
  assert (DiagD : forall o2 n, subclass (class_of o) CDiagBase = true -> r = {| subjects := (Str Dot, Cls CDiagBase); predicate := RCompDiag |} ->
     run r o o2 = ret (Some n) -> sound2 o o2 n).
  { intros o2 n D ->. unfold run_rule. cbn [reference other subjects fst snd is_dot subject_eqb symbol_eqb predicate]. rewrite isinstance_sub by discriminate.
    destruct (subclass (class_of o2) CDiagBase) eqn:D2; [|discriminate]. apply comp_diag_sound; auto. }
  assert (IdL : forall o2 n, o = Ident -> r = {| subjects := (Str Dot, Cls COperator); predicate := RIdL |} -> wf o2 -> run r o o2 = ret (Some n) -> sound2 o o2 n).
  { intros o2 n -> -> W2. unfold run_rule. cbn [reference other subjects fst snd is_dot subject_eqb symbol_eqb predicate predicate_of]. destruct (isinstance _ _ _); [|discriminate]. intros E. apply ret_inj in E. injection E as <-. split; [exact W2|].
    simpl. intros x z y H1 ->. exact H1. }
  assert (IdR : forall o1 n, o = Ident -> r = {| subjects := (Cls COperator, Str Dot); predicate := RIdR |} -> wf o1 -> run r o1 o = ret (Some n) -> sound2 o1 o n).
  { intros o1 n -> -> W2. unfold run_rule. cbn [reference other subjects fst snd is_dot subject_eqb symbol_eqb predicate predicate_of]. destruct (isinstance _ _ _); [|discriminate]. intros E. apply ret_inj in E. injection E as <-. split; [exact W2|].
    simpl. intros x z y -> H1. exact H1. }
  destruct o as [a| |s| |c|d|m|p|l|l|l|pi po l].
  - (* Atom *)
    destruct (a_absorb env a); [|destruct H]. destruct H as [H|[]]. injection H as <-. split; [|discriminate]. intros _ o2 n W2. unfold run_rule.
    cbn [reference other subjects fst snd is_dot subject_eqb symbol_eqb predicate]. destruct (isinstance env o2 CHomothety) eqn:I2; [|discriminate]. apply absorb_sound. exact I2.
  - (* Ident *)
    unfold broadcasting_calls, diag_calls in H. simpl in H. repeat (destruct H as [H|H]; [try discriminate H; injection H as <-|]); [..|destruct H].
    + split; [|discriminate]. intros _ o2 n W2. eapply BL; eauto.
    + split; [discriminate|]. intros _ o1 n W1. eapply BR; eauto.
    + split; [|discriminate]. intros _ o2 n _. apply DiagD; reflexivity.
    + split; [|discriminate]. intros _ o2 n W2. apply IdL; auto.
    + split; [discriminate|]. intros _ o1 n W1. apply IdR; auto.
  - (* Homo *)
    unfold broadcasting_calls, diag_calls in H. simpl in H. repeat (destruct H as [H|H]; [try discriminate H; injection H as <-|]); [..|destruct H].
    + split; [|discriminate]. intros _ o2 n W2. eapply BL; eauto.
    + split; [discriminate|]. intros _ o1 n W1. eapply BR; eauto.
    + split; [|discriminate]. intros _ o2 n _. apply DiagD; reflexivity.
  - (* Zero *)
    unfold broadcasting_calls, const_calls in H. simpl in H. repeat (destruct H as [H|H]; [try discriminate H; injection H as <-|]); [..|destruct H].
    + split; [|discriminate]. intros _ o2 n W2. eapply BL; eauto.
    + split; [discriminate|]. intros _ o1 n W1. eapply BR; eauto.
    + split; [|discriminate]. intros _ o2 n _. unfold run_rule. cbn [reference other subjects fst snd is_dot subject_eqb symbol_eqb predicate predicate_of]. destruct (isinstance _ _ _); [|discriminate]. intros E. apply ret_inj in E. injection E as <-.
      split; [exact I|]. simpl. intros x z y _ H1. exact H1.
    + split; [discriminate|]. intros _ o1 n W1. unfold run_rule. cbn [reference other subjects fst snd is_dot subject_eqb symbol_eqb predicate].
      destruct (isinstance _ _ _); [|discriminate]. apply zero_right_sound, W1.
  - (* Const *)
    unfold broadcasting_calls, const_calls in H. simpl in H. repeat (destruct H as [H|H]; [try discriminate H; injection H as <-|]); [..|destruct H].
    + split; [|discriminate]. intros _ o2 n W2. eapply BL; eauto.
    + split; [discriminate|]. intros _ o1 n W1. eapply BR; eauto.
    + split; [|discriminate]. intros _ o2 n _. unfold run_rule. cbn [reference other subjects fst snd is_dot subject_eqb symbol_eqb predicate predicate_of]. destruct (isinstance _ _ _); [|discriminate]. intros E. apply ret_inj in E. injection E as <-.
      split; [exact I|]. intros x z y _ H1. destruct c; exact H1.
    + split; [discriminate|]. intros _ o1 n _. unfold run_rule. cbn [reference other subjects fst snd is_dot subject_eqb symbol_eqb predicate].
      destruct (isinstance _ _ _); [|discriminate]. apply const_right_sound.
  - (* Diag *)
    unfold broadcasting_calls, diag_calls in H. simpl in H. repeat (destruct H as [H|H]; [try discriminate H; injection H as <-|]); [..|destruct H].
    + split; [|discriminate]. intros _ o2 n W2. eapply BL; eauto.
    + split; [discriminate|]. intros _ o1 n W1. eapply BR; eauto.
    + split; [|discriminate]. intros _ o2 n _. apply DiagD; reflexivity.
  - (* Mask *)
    unfold broadcasting_calls, diag_calls in H. simpl in H. repeat (destruct H as [H|H]; [try discriminate H; injection H as <-|]); [..|destruct H].
    + split; [|discriminate]. intros _ o2 n W2. eapply BL; eauto.
    + split; [discriminate|]. intros _ o1 n W1. eapply BR; eauto.
    + split; [|discriminate]. intros _ o2 n _. apply DiagD; reflexivity.
  - (* Power *)
    simpl in H. destruct H as [H|[H|[H|[]]]]; try discriminate H; injection H as <-. split; [|discriminate]. intros _ o2 n _. unfold run_rule. cbn [reference other subjects fst snd is_dot subject_eqb symbol_eqb predicate predicate_of].
    destruct (isinstance _ _ _); [|discriminate]. destruct o2 as [| | | | | | |q| | | |]; try discriminate. intros E. apply ret_inj in E. injection E as <-.
    split; [apply mkpower_wf|]. simpl. intros x z y -> ->. rewrite map_map. rewrite (map_ext _ (fun a => pow a (p * q))) by (intros; apply pow_mul). apply mkpower_den.
  - (* Comp *)
    apply wf_Comp in W. simpl in H. destruct H as [H|[H|[H|[]]]]; injection H as <-.
    + split; [|discriminate]. intros _ o2 n W2. unfold run_rule. cbn [reference other subjects fst snd is_dot subject_eqb symbol_eqb predicate predicate_of]. destruct (isinstance _ _ _); [|discriminate]. destruct o2 as [| | | | | | | |l2| | |]; try discriminate.
      intros E. apply some_ret in E. apply wf_Comp in W2. apply build_comp_sound in E; [|apply Forall_app; auto]. destruct E as [E1 E2]. split; [exact E1|].
      intros x z y H1 H2. apply E2. apply composes_app. exists z. auto.
    + split; [|discriminate]. intros _ o2 n W2. unfold run_rule. cbn [reference other subjects fst snd is_dot subject_eqb symbol_eqb predicate predicate_of]. destruct (isinstance _ _ _); [|discriminate].
      intros E. apply some_ret in E. apply build_comp_sound in E; [|apply Forall_app; auto]. destruct E as [E1 E2]. split; [exact E1|].
      intros x z y H1 H2. apply E2. apply composes_app. exists z. split; [|exact H2]. simpl. exists x. auto.
    + split; [discriminate|]. intros _ o1 n W1. unfold run_rule. cbn [reference other subjects fst snd is_dot subject_eqb symbol_eqb predicate predicate_of]. destruct (isinstance _ _ _); [|discriminate].
      intros E. apply some_ret in E. apply build_comp_sound in E; [|constructor; auto]. destruct E as [E1 E2]. split; [exact E1|].
      intros x z y H1 H2. apply E2. simpl. exists z. auto.
  - simpl in H. destruct H as [H|[H|[]]]; discriminate H.
  - simpl in H. destruct H as [H|[H|[]]]; discriminate H.
  - simpl in H. repeat (destruct H as [H|H]; [try discriminate H; injection H as <-|]); [..|destruct H].
    + split; [|discriminate]. intros _ o2 n W2 E. apply run_predicate in E; [|discriminate]. cbn [predicate] in E. apply sep_right_sound; auto.
    + split; [discriminate|]. intros _ o1 n W1 E. apply run_predicate in E; [|discriminate]. cbn [predicate] in E. apply sep_left_sound; auto.
    + split; [|discriminate]. intros _ o2 n W2 E. apply run_predicate in E; [|discriminate]. cbn [predicate] in E. apply block_comp_sound; auto.
Qed.

(** *** Addition and element-wise multiplication *)
Lemma combines2 comb (o1 o2 : op) x y : combines den comb [o1; o2] x y <-> exists a b, den o1 x a /\ den o2 x b /\ comb a b y.
Proof.
  rewrite <- combined_combines. simpl. split; intros [a [b [H1 [H2 H3]]]]; exists a, b; auto.
Qed.
Lemma zip3 (f g h k : K -> K -> K) : (forall a b c d, f (g a b) (h c d) = k (k a c) (k b d)) ->
  forall u v x y : vec, length u = length x -> length v = length x -> length y = length x ->
  zip f (zip g u x) (zip h v y) = zip k (zip k u v) (zip k x y).
Proof.
  intros H u v x. revert u v. induction x as [|a x IH]; intros [|b u] [|c v] [|d y] L1 L2 L3; simpl in *; try discriminate; [reflexivity|].
  rewrite !zip_cons, IH by lia. f_equal. rewrite H. reflexivity.
Qed.
Lemma zip_distr (u v x : vec) : length u = length x -> length v = length x -> zip radd (zip rmul u x) (zip rmul v x) = zip rmul (zip radd u v) x.
Proof.
  revert u v. induction x as [|a x IH]; intros [|b u] [|c v] L1 L2; simpl in *; try discriminate; [reflexivity|].
  rewrite !zip_cons, IH by lia. f_equal. ring.
Qed.
Lemma zip_square (x : vec) : zip rmul x x = map (fun a => pow a 2) x.
Proof. induction x as [|a x IH]; simpl; [reflexivity|]. rewrite zip_cons, IH. f_equal. simpl. ring. Qed.
Lemma zip_pow n (x : vec) : zip rmul (map (fun a => pow a n) x) x = map (fun a => pow a (n + 1)) x.
Proof. induction x as [|a x IH]; simpl; [reflexivity|]. rewrite zip_cons, IH. f_equal. rewrite pow_add. simpl. ring. Qed.
Lemma acts_length a x y : acts a x y -> length y = length x.
Proof. intros [v [V ->]]. rewrite zip_length, (at_len_length _ _ _ V). lia. Qed.
Lemma fills_at a y : fills a y -> at_len a (length y) y.
Proof. intros [n H]. rewrite (at_len_length _ _ _ H). exact H. Qed.
Lemma diag_plus a b c x u v y : bcast radd a b = Ok c -> acts a x u -> acts b x v -> plus u v y -> acts c x y.
Proof.
  intros E [u' [U ->]] [v' [V ->]] [_ ->]. exists (zip radd u' v'). split; [eapply bcast_ok; eauto|].
  apply zip_distr; [apply (at_len_length _ _ _ U)|apply (at_len_length _ _ _ V)].
Qed.
Lemma const_comb f comb a b c u v y : (forall u v y, comb u v y -> length u = length v /\ y = zip f u v) -> bcast f a b = Ok c -> fills a u -> fills b v -> comb u v y -> fills c y.
Proof.
  intros Hc E A B H. apply Hc in H. destruct H as [L ->]. apply fills_at in A. apply fills_at in B. rewrite <- L in B. exists (length u). eapply bcast_ok; eauto.
Qed.
Lemma diag_const a b c x u v y : bcast rmul a b = Ok c -> acts a x u -> fills b v -> times u v y -> acts c x y.
Proof.
  intros E A B [L ->]. pose proof (acts_length _ _ _ A) as La. destruct A as [u' [U ->]]. apply fills_at in B. rewrite <- L, La in B.
  exists (zip rmul u' v). split; [eapply bcast_ok; eauto|].
  rewrite <- zip_assoc by (intros; ring). rewrite (zip_comm rmul) with (u := x) by (intros; ring). apply zip_assoc. intros; ring.
Qed.
Lemma diag_diag a b c x u v y : bcast rmul a b = Ok c -> acts a x u -> acts b x v -> times u v y ->
  exists w, fills c w /\ times w (map (fun t => pow t 2) x) y.
Proof.
  intros E [u' [U ->]] [v' [V ->]] [_ ->]. pose proof (at_len_length _ _ _ U) as Lu. pose proof (at_len_length _ _ _ V) as Lv.
  exists (zip rmul u' v'). split; [exists (length x); eapply bcast_ok; eauto|]. split; [rewrite zip_length, map_length; lia|].
  rewrite <- zip_square. apply zip3; auto. intros; ring.
Qed.
Lemma power_diag n a x u v y : u = map (fun t => pow t n) x -> acts a x v -> times u v y ->
  exists w, fills a w /\ times w (map (fun t => pow t (n + 1)) x) y.
Proof.
  intros -> [v' [V ->]] [_ ->]. pose proof (at_len_length _ _ _ V) as Lv. exists v'. split; [exists (length x); exact V|].
  split; [rewrite map_length; exact Lv|]. rewrite <- zip_pow. rewrite zip_assoc by (intros; ring). rewrite (zip_comm rmul) with (v := v') by (intros; ring).
  symmetry. apply zip_assoc. intros; ring.
Qed.
Lemma const_linear a (u w y : vec) : fills a u -> times u w y -> den (mkdiag a) w y.
Proof. intros A [L ->]. apply mkdiag_den. exists u. apply fills_at in A. rewrite L in A. auto. Qed.
Lemma zero_plus n (w y : vec) : plus (repeat 0 n) w y -> y = w.
Proof.
  intros [L ->]. rewrite repeat_length in L. subst. rewrite zip_repeat_l. rewrite <- (map_id w) at 2. apply map_ext. intros; ring.
Qed.
Lemma zero_times n (w y : vec) : times (repeat 0 n) w y -> y = repeat 0 n.
Proof.
  intros [L ->]. rewrite repeat_length in L. subst. rewrite zip_repeat_l. induction w as [|a w IH]; simpl; [reflexivity|]. rewrite IH. f_equal. ring.
Qed.
Lemma combines_app_intro comb l (o2 : op) x a b y : commutative_operation comb -> combines den comb l x a -> den o2 x b -> comb a b y -> combines den comb (l ++ [o2]) x y.
Proof.
  intros Hc H1 H2 H3. eapply (combines_perm den comb Hc (o2 :: l)); [apply Permutation_cons_append|].
  destruct H1 as [ys [F T]]. exists (b :: ys). split; [constructor; auto|]. apply total_cons; [destruct ys; [destruct T|discriminate]|].
  exists a. split; [exact T|]. apply (comb_comm _ Hc), H3.
Qed.
Lemma total_app comb (ys zs : list vec) a b y : commutative_operation comb -> total comb ys a -> total comb zs b -> comb a b y -> total comb (ys ++ zs) y.
Proof.
  intros Hc. revert a y. induction ys as [|u ys IH]; intros a y Ta Tb H; [destruct Ta|]. destruct ys as [|v ys].
  - simpl in Ta. subst. simpl. apply total_cons; [destruct zs; [destruct Tb|discriminate]|]. eauto.
  - apply total_cons in Ta; [|discriminate]. destruct Ta as [c [Tc Hu]].
    destruct (comb_assoc _ Hc _ _ _ _ _ Hu H) as [w [H1 H2]]. change ((u :: v :: ys) ++ zs) with (u :: (v :: ys) ++ zs). apply total_cons; [discriminate|].
    exists w. split; [|exact H2]. eapply IH; eauto.
Qed.
Lemma combines_app2_intro comb (l l' : list op) x a b y : commutative_operation comb -> combines den comb l x a -> combines den comb l' x b -> comb a b y -> combines den comb (l ++ l') x y.
Proof.
  intros Hc [ys [F T]] [zs [F' T']] H. exists (ys ++ zs). split; [apply Forall2_app; auto|]. eapply total_app; eauto.
Qed.

Ltac open := unfold run_rule; cbn [reference other subjects fst snd is_dot subject_eqb symbol_eqb predicate].
Lemma Forall2_len {A B} (R : A -> B -> Prop) l l' : Forall2 R l l' -> length l = length l'.
Proof. induction 1; simpl; congruence. Qed.
Definition comb_of (k : kind) : vec -> vec -> vec -> Prop := match k with KAdd => plus | _ => times end.
Definition fun_of (k : kind) : K -> K -> K := match k with KAdd => radd | _ => rmul end.
Lemma comb_zip k a b y : comb_of k a b y -> length a = length b /\ y = zip (fun_of k) a b.
Proof. destruct k; simpl; auto. Qed.
Lemma krel_comb k : k <> KComp -> krel k = comb_rel (fun_of k).
Proof. destruct k; [congruence|reflexivity|reflexivity]. Qed.
Lemma block_add_sound k o1 o2 n : k <> KComp -> subclass (class_of o1) CBroadcasting = true -> wf o1 -> wf o2 -> rule_block_add env bld k o1 o2 = ret (Some n) -> soundc (comb_of k) o1 o2 n.
Proof.
  intros Nk Hc W1 W2. unfold rule_block_add. destruct o2 as [| | | | | | | | | | |pi po l]; try discriminate. destruct po as [po|]; [|discriminate].
  apply wf_Block in W2. destruct W2 as [Wb W2]. unfold may_add. rewrite (proj1 (Hbk Wb)). cbn [negb orb].
  destruct (subclass (class_of o1) CConstant || partition_eqb pi (Some po)) eqn:M; [|discriminate]. intros E. apply obind_ret in E. destruct E as [s [E1 E]].
  destruct (subclass (class_of o1) CConstant) eqn:D.
  - destruct (sliced_const _ _ _ W1 D E1) as [Ws S]. apply blockwise_sound in E; auto. destruct E as [Wn E]. split; [exact Wn|]. intros x a b y H1 H2 H3. apply E.
    apply comb_zip in H3. destruct H3 as [L ->]. rewrite (krel_comb _ Nk).
    assert (Lb : length a = list_sum po) by (rewrite L; destruct pi as [pi|]; simpl in H2; [apply diag_lengths in H2|apply col_lengths in H2]; apply H2).
    specialize (S _ _ H1 Lb). destruct (pieces_concat po a Lb) as [Pc Pl]. pose proof (Forall2_len _ _ _ S) as Ls. assert (Lp : length (pieces po a) = length po) by (rewrite <- Pl at 2; rewrite map_length; reflexivity).
    destruct pi as [pi|]; simpl in H2 |- *.
    + apply diag_comb; [|exact H2]. pose proof (diag_lengths _ _ _ _ _ H2) as [Q1 [Q2 [Q3 Q4]]]. pose proof (fill_diag _ _ S pi x ltac:(lia) Q1) as F. rewrite Pl, Pc in F. exact F.
    + apply col_comb; [|exact H2]. pose proof (fill_col _ _ x S) as F. rewrite Pl, Pc in F. exact F.
  - apply partition_eqb_same in M. subst pi. assert (Dg : is_diag o1 = true).
    { destruct o1 as [| | | | | | | | | | |pi po' l']; try discriminate Hc; try reflexivity; try discriminate D. destruct pi, po'; discriminate Hc. }
    destruct (sliced_diag _ _ _ W1 Dg E1) as [Ws S]. apply blockwise_sound in E; auto. destruct E as [Wn E]. split; [exact Wn|]. intros x a b y H1 H2 H3. apply E.
    apply comb_zip in H3. destruct H3 as [L ->]. rewrite (krel_comb _ Nk). simpl in *. apply diag_comb; [|exact H2]. apply S; [exact H1|]. apply diag_lengths in H2. apply H2.
Qed.
Lemma sep_add_sound k o1 o2 n : k <> KComp -> wf o1 -> wf o2 -> rule_sep env bld k o1 o2 = ret (Some n) -> soundc (comb_of k) o1 o2 n.
Proof.
  intros Nk W1 W2. unfold rule_sep. destruct o1 as [| | | | | | | | | | |pi po l]; try discriminate.
  apply wf_Block in W1. destruct W1 as [Wb W1]. rewrite (proj1 (Hbk Wb)). cbn [negb orb]. destruct (separable env o2) eqn:S; [|discriminate].
  destruct (partition_eqb pi po) eqn:M; [|discriminate]. apply partition_eqb_same in M. subst pi. intros E. apply separable_piecewise in S.
  apply blockwise_sound in E; auto.
  2:{ apply Forall_forall. intros o' Ho. apply repeat_spec in Ho. subst o'. exact W2. }
  destruct E as [Wn E]. split; [exact Wn|]. intros x a b y H1 H2 H3. apply E. apply comb_zip in H3. destruct H3 as [L ->]. rewrite (krel_comb _ Nk), map_den_repeat.
  destruct po as [po|]; [|destruct H1]. simpl in *. pose proof (diag_lengths _ _ _ _ _ H1) as [Q1 [Q2 [Q3 Q4]]]. rewrite map_length in Q3. rewrite <- Q3.
  apply diag_comb; [exact H1|]. apply piecewise_diag; auto.
Qed.
Lemma same_sound k o1 o2 n : k <> KComp -> wf o1 -> wf o2 -> rule_same env bld k o1 o2 = ret (Some n) -> soundc (comb_of k) o1 o2 n.
Proof.
  intros Nk W1 W2. unfold rule_same. destruct o1 as [| | | | | | | | | | |pi po l]; try discriminate. destruct o2 as [| | | | | | | | | | |pi' po' l']; try discriminate.
  apply wf_Block in W1. destruct W1 as [Wb W1]. apply wf_Block in W2. destruct W2 as [_ W2]. rewrite (proj1 (Hbk Wb)). cbn [negb orb].
  destruct (partition_eqb pi pi') eqn:M1; [|discriminate]. destruct (partition_eqb po po') eqn:M2; [|discriminate]. apply partition_eqb_same in M1. apply partition_eqb_same in M2. subst pi' po'.
  cbn [andb]. destruct (match k, po with KMul, None => false | _, _ => true end) eqn:R; [|discriminate]. intros E.
  apply blockwise_sound in E; auto. destruct E as [Wn E]. split; [exact Wn|]. intros x a b y H1 H2 H3. apply E. apply comb_zip in H3. destruct H3 as [L ->]. rewrite (krel_comb _ Nk).
  destruct pi as [pi|], po as [po|]; simpl in H1, H2 |- *.
  - apply diag_comb; auto.
  - destruct k; [congruence| |discriminate R]. apply row_plus; auto.
  - apply col_comb; auto.
  - destruct H1.
Qed.
Lemma add_call_sound o r : In (Set_ Addition r) (calls env o) -> wf o -> add_numbers env = true ->
  reference cls_eqb r = false /\ forall o2 n, wf o2 -> run r o o2 = ret (Some n) -> soundc plus o o2 n.
Proof.
  intros H W N. unfold calls in H. apply in_app_iff in H. destruct H as [H|H].
  { unfold flag_calls in H. rewrite !in_app_iff in H. destruct H as [[H|[]]|[H|[H|[H|H]]]]; [discriminate H| | | |];
      match type of H with In _ (if ?b then _ else _) => destruct b; [destruct H as [H|[]]; discriminate H|destruct H] end. }
  assert (Blk : forall o2 n, subclass (class_of o) CBroadcasting = true -> r = {| subjects := (Str Dot, Cls CBlock); predicate := RBlockAdd |} -> wf o2 -> run r o o2 = ret (Some n) -> soundc plus o o2 n).
  { intros o2 n Hc -> W2 E. apply run_predicate in E; [|discriminate]. cbn [predicate] in E. apply (block_add_sound KAdd); auto; discriminate. }
  assert (Dg : forall o2 n, subclass (class_of o) CDiagBase = true -> r = {| subjects := (Str Dot, Cls CDiagBase); predicate := RAddDiag |} -> run r o o2 = ret (Some n) -> soundc plus o o2 n).
  { intros o2 n D ->. open. rewrite isinstance_sub by discriminate. destruct (subclass (class_of o2) CDiagBase) eqn:D2; [|discriminate].
    cbn [predicate_of]. intros E. apply broadcast_ret in E. destruct E as [a [b [c [A [B [E [= <-]]]]]]]. split; [apply mkdiag_wf|].
    intros x u v y H1 H2 H3. assert (Q : addb env o o2 = radd) by (unfold addb; rewrite N; reflexivity). rewrite Q in E.
    apply (data_acts _ _ _ _ D A) in H1. apply (data_acts _ _ _ _ D2 B) in H2. apply mkdiag_den. eapply diag_plus; eauto. }
  assert (Ct : forall o2 n, subclass (class_of o) CConstant = true -> r = {| subjects := (Str Dot, Cls CConstant); predicate := RAddConst |} -> run r o o2 = ret (Some n) -> soundc plus o o2 n).
  { intros o2 n D ->. open. rewrite isinstance_sub by discriminate. destruct (subclass (class_of o2) CConstant) eqn:D2; [|discriminate].
    cbn [predicate_of]. intros E. apply broadcast_ret in E. destruct E as [a [b [c [A [B [E M]]]]]]. split; [eapply mkconst_wf; eauto|].
    intros x u v y H1 H2 H3. apply (data_fills _ _ _ _ D A) in H1. apply (data_fills _ _ _ _ D2 B) in H2. eapply mkconst_den; [exact M|].
    eapply (const_comb radd plus); eauto. }
  destruct o as [a| |s| |c|d|m|p|l|l|l|pi po l].
  - destruct (a_absorb env a); [|destruct H]. destruct H as [H|[]]. discriminate H.
  - unfold broadcasting_calls, diag_calls in H. simpl in H. repeat (destruct H as [H|H]; [try discriminate H; injection H as <-|]); [..|destruct H];
      (split; [reflexivity|]); intros o2 n W2; [apply Blk; auto|apply Dg; reflexivity].
  - unfold broadcasting_calls, diag_calls in H. simpl in H. repeat (destruct H as [H|H]; [try discriminate H; injection H as <-|]); [..|destruct H];
      (split; [reflexivity|]); intros o2 n W2; [apply Blk; auto|apply Dg; reflexivity].
  - unfold broadcasting_calls, const_calls in H. simpl in H. repeat (destruct H as [H|H]; [try discriminate H; injection H as <-|]); [..|destruct H];
      (split; [reflexivity|]); intros o2 n W2; [apply Blk; auto|apply Ct; reflexivity|].
    open. destruct (isinstance _ _ _); [|discriminate]. cbn [predicate_of]. intros E. apply ret_inj in E. injection E as <-. split; [exact W2|].
    intros x u v y [k ->] H2 H3. apply zero_plus in H3. subst. exact H2.
  - unfold broadcasting_calls, const_calls in H. simpl in H. repeat (destruct H as [H|H]; [try discriminate H; injection H as <-|]); [..|destruct H];
      (split; [reflexivity|]); intros o2 n W2; [apply Blk; auto|apply Ct; reflexivity].
  - unfold broadcasting_calls, diag_calls in H. simpl in H. repeat (destruct H as [H|H]; [try discriminate H; injection H as <-|]); [..|destruct H];
      (split; [reflexivity|]); intros o2 n W2; [apply Blk; auto|apply Dg; reflexivity].
  - unfold broadcasting_calls, diag_calls in H. simpl in H. repeat (destruct H as [H|H]; [try discriminate H; injection H as <-|]); [..|destruct H];
      (split; [reflexivity|]); intros o2 n W2; [apply Blk; auto|apply Dg; reflexivity].
  - simpl in H. destruct H as [H|[H|[H|[]]]]; discriminate H.
  - simpl in H. destruct H as [H|[H|[H|[]]]]; discriminate H.
  - apply wf_Add in W. simpl in H. destruct H as [H|[H|[]]]; injection H as <-; (split; [reflexivity|]); intros o2 n W2; open;
      (destruct (isinstance _ _ _); [|discriminate]); cbn [predicate_of].
    + intros E. apply some_ret in E. apply Hb in E; [|intros _; exact N|apply Forall_app; auto]. destruct E as [E1 E2]. split; [exact E1|].
      intros x u v y H1 H2 H3. apply E2. simpl. apply den_Add in H1. eapply combines_app_intro; eauto using plus_comm.
    + destruct o2 as [| | | | | | | | |l2| |]; try discriminate. apply wf_Add in W2. intros E. apply some_ret in E. apply Hb in E; [|intros _; exact N|apply Forall_app; auto].
      destruct E as [E1 E2]. split; [exact E1|]. intros x u v y H1 H2 H3. apply E2. simpl. apply den_Add in H1. apply den_Add in H2. eapply combines_app2_intro; eauto using plus_comm.
  - simpl in H. destruct H as [H|[H|[]]]; discriminate H.
  - simpl in H. repeat (destruct H as [H|H]; [try discriminate H; injection H as <-|]); [..|destruct H];
      (split; [reflexivity|]); intros o2 n W2 E; (apply run_predicate in E; [|discriminate]); cbn [predicate] in E; [apply (sep_add_sound KAdd)|apply (same_sound KAdd)]; auto; discriminate.
Qed.
Lemma mul_call_sound o r : In (Set_ Multiplication r) (calls env o) -> wf o ->
  reference cls_eqb r = false /\ forall o2 n, wf o2 -> run r o o2 = ret (Some n) -> soundc times o o2 n.
Proof.
  intros H W. unfold calls in H. apply in_app_iff in H. destruct H as [H|H].
  { unfold flag_calls in H. rewrite !in_app_iff in H. destruct H as [[H|[]]|[H|[H|[H|H]]]]; [discriminate H| | | |];
      match type of H with In _ (if ?b then _ else _) => destruct b; [destruct H as [H|[]]; discriminate H|destruct H] end. }
  assert (Blk : forall o2 n, subclass (class_of o) CBroadcasting = true -> r = {| subjects := (Str Dot, Cls CBlock); predicate := RBlockMul |} -> wf o2 -> run r o o2 = ret (Some n) -> soundc times o o2 n).
  { intros o2 n Hc -> W2 E. apply run_predicate in E; [|discriminate]. cbn [predicate] in E. apply (block_add_sound KMul); auto; discriminate. }
  assert (Mb : forall ops n, Forall wf ops -> bld KMul ops = ret n -> wf n /\ forall x y, combines den times ops x y -> den n x y).
  { intros ops n Wo E. apply (Hb KMul); auto. discriminate. }
  assert (Dc : forall o2 n, subclass (class_of o) CDiagBase = true -> r = {| subjects := (Str Dot, Cls CConstant); predicate := RMulDiagConst |} -> run r o o2 = ret (Some n) -> soundc times o o2 n).
  { intros o2 n D ->. open. rewrite isinstance_sub by discriminate. destruct (subclass (class_of o2) CConstant) eqn:D2; [|discriminate].
    cbn [predicate_of]. intros E. apply broadcast_ret in E. destruct E as [a [b [c [A [B [E [= <-]]]]]]]. split; [apply mkdiag_wf|].
    intros x u v y H1 H2 H3. apply (data_acts _ _ _ _ D A) in H1. apply (data_fills _ _ _ _ D2 B) in H2. apply mkdiag_den. eapply diag_const; eauto. }
  assert (Dd : forall o2 n, subclass (class_of o) CDiagBase = true -> r = {| subjects := (Str Dot, Cls CDiagBase); predicate := RMulDiag |} -> run r o o2 = ret (Some n) -> soundc times o o2 n).
  { intros o2 n D ->. open. rewrite isinstance_sub by discriminate. destruct (subclass (class_of o2) CDiagBase) eqn:D2; [|discriminate].
    cbn [predicate_of]. destruct (data o) as [a|] eqn:A; [|discriminate]. destruct (data o2) as [b|] eqn:B; [|discriminate]. intros E.
    apply some_ret in E. apply obind_ret in E. destruct E as [c [E1 E]]. apply lift_ret in E1. apply obind_ret in E. destruct E as [oc [E2 E]]. apply lift_ret in E2.
    apply Mb in E; [|constructor; [eapply mkconst_wf; eauto|constructor; [apply (mkpower_wf 2)|constructor]]]. destruct E as [E3 E4]. split; [exact E3|].
    intros x u v y H1 H2 H3. apply (data_acts _ _ _ _ D A) in H1. apply (data_acts _ _ _ _ D2 B) in H2. destruct (diag_diag _ _ _ _ _ _ _ E1 H1 H2 H3) as [w [F T]].
    apply E4. apply combines2. exists w, (map (fun t => pow t 2) x). split; [eapply mkconst_den; eauto|]. split; [apply (mkpower_den 2)|exact T]. }
  assert (Cm : forall o2 n, wf o2 -> subclass (class_of o) CConstant = true -> r = {| subjects := (Str Dot, Cls COperator); predicate := RConstMul |} -> run r o o2 = ret (Some n) -> soundc times o o2 n).
  { intros o2 n W2 D ->. open. destruct (isinstance _ _ _); [|discriminate]. cbn [predicate_of]. intros E.
    destruct (data o) as [c|] eqn:A; [|destruct o2; discriminate E].
    assert (Q : bld KComp [mkdiag c; o2] = ret n).
    { destruct o2; try (apply some_ret; exact E); (destruct (CalcModel.linear env _) in E; [apply some_ret; exact E|discriminate]). }
    clear E. apply build_comp_sound in Q; [|constructor; [apply mkdiag_wf|auto]]. destruct Q as [Q1 Q2]. split; [exact Q1|].
    intros x u v y H1 H2 H3. apply Q2. simpl. exists v. split; [exists x; auto|]. eapply const_linear; [|exact H3]. apply (data_fills o c x u); auto. }
  assert (Cc : forall o2 n, subclass (class_of o) CConstant = true -> r = {| subjects := (Str Dot, Cls CConstant); predicate := RMulConst |} -> run r o o2 = ret (Some n) -> soundc times o o2 n).
  { intros o2 n D ->. open. rewrite isinstance_sub by discriminate. destruct (subclass (class_of o2) CConstant) eqn:D2; [|discriminate].
    cbn [predicate_of]. intros E. apply broadcast_ret in E. destruct E as [a [b [c [A [B [E M]]]]]]. split; [eapply mkconst_wf; eauto|].
    intros x u v y H1 H2 H3. apply (data_fills _ _ _ _ D A) in H1. apply (data_fills _ _ _ _ D2 B) in H2. eapply mkconst_den; [exact M|].
    eapply (const_comb rmul times); eauto. }
  destruct o as [a| |s| |c|d|m|p|l|l|l|pi po l].
  - destruct (a_absorb env a); [|destruct H]. destruct H as [H|[]]. discriminate H.
  - unfold broadcasting_calls, diag_calls in H. simpl in H. repeat (destruct H as [H|H]; [try discriminate H; injection H as <-|]); [..|destruct H];
      (split; [reflexivity|]); intros o2 n W2; [apply Blk; auto|apply Dc; reflexivity|apply Dd; reflexivity].
  - unfold broadcasting_calls, diag_calls in H. simpl in H. repeat (destruct H as [H|H]; [try discriminate H; injection H as <-|]); [..|destruct H];
      (split; [reflexivity|]); intros o2 n W2; [apply Blk; auto|apply Dc; reflexivity|apply Dd; reflexivity].
  - unfold broadcasting_calls, const_calls in H. simpl in H. repeat (destruct H as [H|H]; [try discriminate H; injection H as <-|]); [..|destruct H].
    + split; [reflexivity|]. intros o2 n W2. apply Blk; auto.
    + split; [reflexivity|]. intros o2 n W2. apply Cm; auto.
    + split; [reflexivity|]. intros o2 n W2. apply Cc; reflexivity.
    + split; [reflexivity|]. intros o2 n W2. open. destruct (isinstance _ _ _); [|discriminate]. cbn [predicate_of]. intros E. apply ret_inj in E. injection E as <-.
      split; [exact I|]. intros x u v y [k ->] H2 H3. apply zero_times in H3. subst. exists k. reflexivity.
  - unfold broadcasting_calls, const_calls in H. simpl in H. repeat (destruct H as [H|H]; [try discriminate H; injection H as <-|]); [..|destruct H];
      (split; [reflexivity|]); intros o2 n W2; [apply Blk; auto|apply Cm; auto|apply Cc; reflexivity].
  - unfold broadcasting_calls, diag_calls in H. simpl in H. repeat (destruct H as [H|H]; [try discriminate H; injection H as <-|]); [..|destruct H];
      (split; [reflexivity|]); intros o2 n W2; [apply Blk; auto|apply Dc; reflexivity|apply Dd; reflexivity].
  - unfold broadcasting_calls, diag_calls in H. simpl in H. repeat (destruct H as [H|H]; [try discriminate H; injection H as <-|]); [..|destruct H];
      (split; [reflexivity|]); intros o2 n W2; [apply Blk; auto|apply Dc; reflexivity|apply Dd; reflexivity].
  - simpl in H. destruct H as [H|[H|[H|[]]]]; try discriminate H; injection H as <-; (split; [reflexivity|]); intros o2 n W2; open.
    + destruct (isinstance _ _ _); [|discriminate]. cbn [predicate_of]. destruct o2 as [| | | | | | |q| | | |]; try discriminate. intros E. apply ret_inj in E. injection E as <-.
      split; [apply mkpower_wf|]. simpl. intros x u v y -> -> [_ ->]. replace (zip _ _ _) with (map (fun a => pow a (p + q)) x); [apply mkpower_den|].
      clear. induction x as [|a x IH]; simpl; [reflexivity|]. rewrite zip_cons, IH. f_equal. apply pow_add.
    + rewrite isinstance_sub by discriminate. destruct (subclass (class_of o2) CDiagBase) eqn:D2; [|discriminate]. cbn [predicate_of].
      destruct (data o2) as [b|] eqn:B; [|discriminate]. intros E. apply some_ret in E. apply obind_ret in E. destruct E as [oc [E1 E]]. apply lift_ret in E1.
      apply Mb in E; [|constructor; [eapply mkconst_wf; eauto|constructor; [apply mkpower_wf|constructor]]]. destruct E as [E3 E4]. split; [exact E3|].
      intros x u v y H1 H2 H3. apply (data_acts _ _ _ _ D2 B) in H2. destruct (power_diag p b x u v y H1 H2 H3) as [w [F T]].
      apply E4. apply combines2. exists w, (map (fun t => pow t (p + 1)) x). split; [eapply mkconst_den; eauto|]. split; [apply mkpower_den|exact T].
  - simpl in H. destruct H as [H|[H|[H|[]]]]; discriminate H.
  - simpl in H. destruct H as [H|[H|[]]]; discriminate H.
  - apply wf_Mul in W. simpl in H. destruct H as [H|[H|[]]]; injection H as <-; (split; [reflexivity|]); intros o2 n W2; open;
      (destruct (isinstance _ _ _); [|discriminate]); cbn [predicate_of].
    + intros E. apply some_ret in E. apply Mb in E; [|apply Forall_app; auto]. destruct E as [E1 E2]. split; [exact E1|].
      intros x u v y H1 H2 H3. apply E2. simpl. apply den_Mul in H1. eapply combines_app_intro; eauto using times_comm.
    + destruct o2 as [| | | | | | | | | |l2 |]; try discriminate. apply wf_Mul in W2. intros E. apply some_ret in E. apply Mb in E; [|apply Forall_app; auto].
      destruct E as [E1 E2]. split; [exact E1|]. intros x u v y H1 H2 H3. apply E2. simpl. apply den_Mul in H1. apply den_Mul in H2. eapply combines_app2_intro; eauto using times_comm.
  - simpl in H. repeat (destruct H as [H|H]; [try discriminate H; injection H as <-|]); [..|destruct H];
      (split; [reflexivity|]); intros o2 n W2 E; (apply run_predicate in E; [|discriminate]); cbn [predicate] in E; [apply (sep_add_sound KMul)|apply (same_sound KMul)]; auto; discriminate.
Qed.

(** *** The lists of rules *)
Lemma op_rules_from o : all_from cls_eqb (calls env o) (op_rules env o).
Proof. apply history_from. Qed.
Lemma left_rule_sound o o2 r n : wf o -> wf o2 -> In r (left_rules (op_rules env o)) -> run r o o2 = ret (Some n) -> sound2 o o2 n.
Proof.
  intros W W2 H E. destruct (op_rules_from o) as [_ [_ [A _]]]. destruct (A r H) as [Hc R]. exact (proj1 (comp_call_sound o r Hc W) R o2 n W2 E).
Qed.
Lemma right_rule_sound o1 o r n : wf o1 -> wf o -> In r (right_rules (op_rules env o)) -> run r o1 o = ret (Some n) -> sound2 o1 o n.
Proof.
  intros W1 W H E. destruct (op_rules_from o) as [_ [_ [_ A]]]. destruct (A r H) as [Hc R]. exact (proj2 (comp_call_sound o r Hc W) R o1 n W1 E).
Qed.
Lemma sound2_composes o1 o2 o : sound2 o1 o2 o -> wf o /\ forall x y, composes den [o1; o2] x y -> den o x y.
Proof. intros [W H]. split; [exact W|]. intros x y E. apply composes2 in E. destruct E as [z [E1 E2]]. eauto. Qed.
Lemma pair_rules_sound o1 o2 : wf o1 -> wf o2 -> Forall (sound_rule den wf o1 o2) (pair_rules env bld o1 o2).
Proof.
  intros W1 W2. unfold pair_rules. rewrite Forall_map, Forall_forall. intros r Hr n E. unfold run_rule_comp in E.
  apply obind_ret in E. destruct E as [m [E H]]. apply ret_inj in H. destruct m as [o|]; [|discriminate]. injection H as <-.
  unfold rules_for_pair in Hr. apply sort_In in Hr. assert (Q : sound2 o1 o2 o).
  { apply in_app_iff in Hr. destruct Hr as [Hr|Hr]; [eapply left_rule_sound|eapply right_rule_sound]; eauto. }
  apply sound2_composes in Q. destruct Q as [Q1 Q2]. split; [simpl; auto|]. intros x y Hx. simpl. exists x. split; [reflexivity|]. apply Q2, Hx.
Qed.
Lemma soundc_combines comb o1 o2 o : soundc comb o1 o2 o -> wf o /\ forall x y, combines den comb [o1; o2] x y -> den o x y.
Proof. intros [W H]. split; [exact W|]. intros x y E. apply combines2 in E. destruct E as [a [b [E1 [E2 E3]]]]. eauto. Qed.
Lemma add_rules_sound o o' : add_numbers env = true -> wf o -> wf o' -> Forall (sound_rule1 den plus wf o o') (add_rules_of env bld o).
Proof.
  intros N W W'. unfold add_rules_of. rewrite Forall_map, Forall_forall. intros r Hr n E. destruct (op_rules_from o) as [A _].
  destruct (A r Hr) as [r' [Hc Q]]. destruct (add_call_sound o r' Hc W N) as [R S]. rewrite R in Q. subst. apply soundc_combines. eauto.
Qed.
Lemma mul_rules_sound o o' : wf o -> wf o' -> Forall (sound_rule1 den times wf o o') (mul_rules_of env bld o).
Proof.
  intros W W'. unfold mul_rules_of. rewrite Forall_map, Forall_forall. intros r Hr n E. destruct (op_rules_from o) as [_ [A _]].
  destruct (A r Hr) as [r' [Hc Q]]. destruct (mul_call_sound o r' Hc W) as [R S]. rewrite R in Q. subst. apply soundc_combines. eauto.
Qed.
Lemma homo_left_sound o d : wf o -> Forall (sound_absorption den wf o (mkhomo d)) (homo_left env bld o).
Proof.
  intros W. unfold homo_left. rewrite Forall_map, Forall_forall. intros r Hr n E. apply filter_In in Hr. destruct Hr as [Hr _].
  apply sound2_composes. eapply left_rule_sound; eauto using mkhomo_wf.
Qed.
Lemma homo_right_sound o d : wf o -> Forall (sound_absorption den wf (mkhomo d) o) (homo_right env bld o).
Proof.
  intros W. unfold homo_right. rewrite Forall_map, Forall_forall. intros r Hr n E. apply filter_In in Hr. destruct Hr as [Hr _].
  apply sound2_composes. eapply right_rule_sound; eauto using mkhomo_wf.
Qed.
End Rules.

Lemma scalar_ops_ok : scalar_operators den scal wf linear scalar_of Ident mkhomo.
Proof.
  split.
  - intros o W. apply linear_homogeneous, W.
  - intros o d0 x y _. destruct o; try discriminate. simpl. intros [= ->]. auto.
  - exact I.
  - reflexivity.
  - reflexivity.
  - reflexivity.
  - apply mkhomo_wf.
  - apply mkhomo_den.
Qed.
Lemma homo_not_zero o : wf o -> is_homo o = true -> is_zero_data env o = false.
Proof. destruct o; try discriminate; simpl; [reflexivity|]. intros H _. destruct (keqb s 0) eqn:E; [|reflexivity]. apply keqb_true in E. contradiction. Qed.
Lemma Forall_wf_one k ops o : Forall wf ops -> (match ops with [a] => a | _ => match k with KComp => Comp ops | KAdd => Add ops | KMul => Mul ops end end) = o ->
  wf o /\ (ops <> [] -> forall x y, kind_den k ops x y -> den o x y).
Proof.
  intros W <-. destruct ops as [|a [|b l]].
  - split; [destruct k; exact I|]. congruence.
  - split; [inversion W; auto|]. intros _ x y. destruct k; simpl.
    + intros [z [-> H]]. exact H.
    + rewrite <- combined_combines. auto.
    + rewrite <- combined_combines. auto.
  - split; [destruct k; [apply wf_Comp|apply wf_Add|apply wf_Mul]; exact W|]. intros _ x y.
    destruct k; cbn [kind_den]; [auto|rewrite den_Add; auto|rewrite den_Mul; auto].
Qed.
Lemma combines_nil comb x y : ~ combines den comb [] x y.
Proof. intros [ys [F T]]. inversion F; subst. exact T. Qed.
Theorem build_sound fuel : forall k ops o, (k = KAdd -> add_numbers env = true) -> Forall wf ops -> build env fuel k ops = ret o ->
  wf o /\ forall x y, kind_den k ops x y -> den o x y.
Proof.
  induction fuel as [|fuel IH]; intros k ops o N W; [discriminate|]. cbn [build]. destruct ops as [|a l]; [discriminate|]. set (ops := a :: l) in *. destruct k.
  - intros H. apply obind_ret in H. destruct H as [ops1 [H1 H]]. apply obind_ret in H. destruct H as [ops2 [H2 H]]. apply ret_inj in H.
    destruct (homothety_stage_sound (k_eqb env) den scal wf linear is_ident scalar_of Ident mkhomo (homo_left env (build env fuel)) (homo_right env (build env fuel))
      (fun a b => proj1 (keqb_ok _ _ C a b)) scaling_ok scalar_ops_ok (homo_left_sound _ IH) (homo_right_sound _ IH) ops ops1 W H1) as [W1 [_ S1]].
    destruct (comp_rules_sound den wf (pair_rules env (build env fuel)) (pair_rules_sound _ IH) _ ops1 ops2 W1 H2) as [W2 S2].
    destruct (Forall_wf_one KComp ops2 o W2 H) as [Wo So]. split; [exact Wo|]. intros x y Hx. apply S1, S2 in Hx.
    destruct ops2 as [|b l2]; [|apply So; [discriminate|exact Hx]]. subst o. exact Hx.
  - specialize (N eq_refl). intros H. apply obind_ret in H. destruct H as [ops1 [H1 H]]. apply ret_inj in H.
    destruct (comm_rules_sound den plus wf plus_comm (add_rules_of env (build env fuel)) (fun o o' => add_rules_sound _ IH o o' N) is_homo (is_zero_data env)
      homo_not_zero _ ops ops1 W H1) as [W1 S1].
    destruct (Forall_wf_one KAdd ops1 o W1 H) as [Wo So]. split; [exact Wo|]. intros x y Hx. apply S1 in Hx. apply So; [|exact Hx].
    intros ->. exact (combines_nil _ _ _ Hx).
  - intros H. apply obind_ret in H. destruct H as [ops1 [H1 H]]. apply ret_inj in H.
    destruct (comm_rules_sound den times wf times_comm (mul_rules_of env (build env fuel)) (mul_rules_sound _ IH) is_homo (is_zero_data env)
      homo_not_zero _ ops ops1 W H1) as [W1 S1].
    destruct (Forall_wf_one KMul ops1 o W1 H) as [Wo So]. split; [exact Wo|]. intros x y Hx. apply S1 in Hx. apply So; [|exact Hx].
    intros ->. exact (combines_nil _ _ _ Hx).
Qed.

(** ** Every construction ends *)
Fixpoint size (o : op) : nat :=
  match o with
  | Ident => 0
  | Comp l => S (fold_right (fun o n => size o + n)%nat 0%nat l)
  | Mul l => fold_right (fun o n => size o + n)%nat 0%nat l
  | _ => 1
  end.
Fixpoint width (o : op) : nat :=
  match o with
  | Const _ | Power _ => 2
  | Zero => 4
  | Comp l => fold_right (fun o n => Nat.max (width o) n) 5%nat l
  | Mul l => S (fold_right (fun o n => width o + n)%nat 0%nat l)
  | _ => 5
  end.
Fixpoint terms (o : op) : nat :=
  match o with Add l => S (fold_right (fun o n => terms o + n)%nat 0%nat l) | _ => 1 end.
Definition bulk (o : op) : nat := (width o + size o)%nat.
Lemma width_Comp l : width (Comp l) = fold_right (fun o n => Nat.max (width o) n) 5%nat l. Proof. reflexivity. Qed.
Lemma width_max l B : (5 <= B)%nat -> width (Comp l) <= B <-> Forall (fun o => width o <= B) l.
Proof.
  intros H. rewrite width_Comp. induction l as [|o l IH]; simpl; [split; [constructor|lia]|]. rewrite Forall_cons_iff, <- IH. lia.
Qed.
Lemma bulk_Mul l : bulk (Mul l) = S (measure bulk l).
Proof. unfold bulk, measure. simpl. f_equal. induction l as [|o l IH]; simpl; lia. Qed.
Lemma size_Comp l : size (Comp l) = S (measure size l). Proof. reflexivity. Qed.
Lemma terms_Add l : terms (Add l) = S (measure terms l). Proof. reflexivity. Qed.
Definition bound (k : kind) (ops : list op) (o : op) : Prop :=
  match k with
  | KComp => size o <= 1 + measure size ops /\ forall B, 5 <= B -> Forall (fun o => width o <= B) ops -> width o <= B
  | KAdd => terms o <= 1 + measure terms ops
  | KMul => bulk o <= 1 + measure bulk ops
  end%nat.
Definition room (k : kind) (ops : list op) : nat :=
  match k with KComp => measure size ops | KAdd => measure terms ops | KMul => measure bulk ops end.

Lemma mkhomo_cases s : mkhomo s = Zero \/ mkhomo s = Ident \/ mkhomo s = Homo s.
Proof. unfold CalcModel.mkhomo. destruct (keqb s 0); [auto|]. destruct (keqb s 1); auto. Qed.
Lemma mkhomo_small s : (size (mkhomo s) <= 1 /\ width (mkhomo s) <= 5 /\ terms (mkhomo s) = 1)%nat.
Proof. destruct (mkhomo_cases s) as [->|[->| ->]]; simpl; lia. Qed.
Lemma mkdiag_small a : (size (mkdiag a) <= 1 /\ width (mkdiag a) <= 5 /\ terms (mkdiag a) = 1)%nat.
Proof.
  destruct a as [s|d]; simpl; [apply mkhomo_small|]. destruct (forallb _ d); [simpl; lia|]. destruct (forallb _ d); [simpl; lia|].
  destruct (all_same env d); [apply mkhomo_small|]. destruct (forallb _ d); simpl; lia.
Qed.
Lemma mkconst_small a o : mkconst a = Ok o -> (size o = 1 /\ width o <= 4 /\ terms o = 1)%nat.
Proof.
  destruct a as [s|[|b d]]; simpl; [|discriminate|].
  - intros [= <-]. destruct (keqb s 0); simpl; lia.
  - intros [= <-]. destruct (forallb _ d); [destruct (keqb b 0)|]; simpl; lia.
Qed.
Lemma mkpower_eq n : (2 <= n)%nat -> mkpower n = Power n.
Proof. destruct n as [|[|n]]; [lia|lia|reflexivity]. Qed.
Lemma linear_width o : linear o = true -> (4 <= width o)%nat.
Proof.
  destruct o; simpl; try discriminate; intros _; try lia. clear. induction l as [|o l IH]; simpl; lia.
Qed.
Lemma Comp_width l : (5 <= width (Comp l))%nat.
Proof. induction l as [|o l IH]; simpl in *; lia. Qed.

(** Which rules there are. *)
Definition where_rule (o : op) (k : operation) (r : rule cls rname) : Prop :=
  match predicate r with
  | RZeroL => k = Composition /\ o = Zero /\ reference cls_eqb r = false
  | RZeroR => k = Composition /\ o = Zero /\ reference cls_eqb r = true
  | RZeroAdd => k = Addition
  | RZeroMul => k = Multiplication /\ o = Zero
  | RMulDiag => k = Multiplication /\ subclass (class_of o) CDiagBase = true /\ subjects r = (Str Dot, Cls CDiagBase)
  | RPowDiag => k = Multiplication /\ subjects r = (Str Dot, Cls CDiagBase)
  | RCommOp | RCommComm => match k with Addition => exists l, o = Add l | Multiplication => exists l, o = Mul l | Composition => False end
  | RAddDiag | RAddConst => k = Addition
  | RConstMul | RMulConst | RPowMul | RMulDiagConst => k = Multiplication
  | RBlockL | RBlockR | RBlockComp | RSepL | RSepR => k = Composition
  | RBlockAdd | RSepAdd | RSameAdd => k = Addition
  | RBlockMul | RSepMul | RSameMul => k = Multiplication
  | RDot | ROne | RCompDiag | RIdL | RIdR | RConstL | RConstR | RPowComp | RCompComp | RCompOp | ROpComp | RAbsorb => k = Composition
  end.
Lemma calls_where o k r : In (Set_ k r) (calls env o) -> where_rule o k r /\ (k <> Composition -> reference cls_eqb r = false).
Proof.
  intros H. unfold calls in H. apply in_app_iff in H. destruct H as [H|H].
  { unfold flag_calls in H. rewrite !in_app_iff in H.
    assert (Q : predicate r = RDot /\ k = Composition \/ predicate r = ROne /\ k = Composition).
    { destruct H as [[H|[]]|[H|[H|[H|H]]]]; [injection H as <- <-; auto| | | |];
        match type of H with In _ (if ?b then _ else _) => destruct b; [destruct H as [H|[]]; injection H as <- <-; auto|destruct H] end. }
    unfold where_rule. destruct Q as [[-> ->]|[-> ->]]; split; congruence. }
  destruct o as [a| |s| |c|d|m|p|l|l|l|pi po l].
  1:{ destruct (a_absorb env a); [|destruct H]. destruct H as [H|[]]. injection H as <- <-. split; [reflexivity|congruence]. }
  all: unfold broadcasting_calls, diag_calls, const_calls in H; simpl in H;
    repeat (destruct H as [H|H]; [first [discriminate H|injection H as <- <-]; (split; [unfold where_rule; cbn [predicate]; solve [repeat split|eauto]|intros ?; solve [reflexivity|congruence]])|]); destruct H.
Qed.

Lemma data_size o a : data o = Some a -> o = Ident \/ (1 <= size o)%nat.
Proof. destruct o; try discriminate; simpl; auto; right; lia. Qed.
Lemma data_bulk o a : data o = Some a -> (3 <= bulk o)%nat.
Proof. destruct o; try discriminate; unfold bulk; simpl; lia. Qed.
Lemma diag_bulk o : subclass (class_of o) CDiagBase = true -> (5 <= bulk o)%nat /\ (o = Ident \/ 6 <= bulk o)%nat.
Proof. destruct o; try discriminate; unfold bulk; simpl; intros _; (split; [lia|first [left; reflexivity|right; lia]]). Qed.
Lemma mkconst_bulk a o : mkconst a = Ok o -> (bulk o <= 5)%nat.
Proof. intros H. destruct (mkconst_small _ _ H) as [A [B _]]. unfold bulk. lia. Qed.

(** The rules on homotheties *)
Lemma calls_homothety o r : In (Set_ Composition r) (calls env o) ->
  (subjects_eqb cls_eqb (subjects r) (Str Dot, Cls CHomothety) = true -> predicate r = RAbsorb)
  /\ subjects_eqb cls_eqb (subjects r) (Cls CHomothety, Str Dot) = false.
Proof.
  intros H. unfold calls in H. apply in_app_iff in H. destruct H as [H|H].
  { unfold flag_calls in H. rewrite !in_app_iff in H.
    destruct H as [[H|[]]|[H|[H|[H|H]]]]; [injection H as <-; split; [discriminate|reflexivity]| | | |];
      match type of H with In _ (if ?b then _ else _) => destruct b; [destruct H as [H|[]]; injection H as <-; split; [discriminate|reflexivity]|destruct H] end. }
  destruct o as [a| |s| |c|d|m|p|l|l|l|pi po l].
  1:{ destruct (a_absorb env a); [|destruct H]. destruct H as [H|[]]. injection H as <-. split; reflexivity. }
  all: unfold broadcasting_calls, diag_calls, const_calls in H; simpl in H;
    repeat (destruct H as [H|H]; [first [discriminate H|injection H as <-]; (split; [discriminate|reflexivity])|]); destruct H.
Qed.
Lemma homo_left_In bld o f : In f (homo_left env bld o) -> exists r, f = run_rule env bld r /\ predicate r = RAbsorb.
Proof.
  unfold homo_left. rewrite in_map_iff. intros [r [<- H]]. apply filter_In in H. destruct H as [H S]. exists r. split; [reflexivity|].
  destruct (op_rules_from o) as [_ [_ [A _]]]. destruct (A r H) as [Hc _]. exact (proj1 (calls_homothety o r Hc) S).
Qed.
Lemma homo_right_nil bld o : homo_right env bld o = [].
Proof.
  unfold homo_right. enough (H : forall l, (forall r, In r l -> In r (right_rules (op_rules env o))) ->
     filter (fun r => subjects_eqb cls_eqb (subjects r) (Cls CHomothety, Str Dot)) l = []) by (rewrite H; auto).
  induction l as [|r l IH]; simpl; intros Hl; [reflexivity|]. destruct (op_rules_from o) as [_ [_ [_ A]]]. destruct (A r (Hl r (or_introl eq_refl))) as [Hc _].
  rewrite (proj2 (calls_homothety o r Hc)). apply IH. auto.
Qed.
Lemma absorb_run bld r o1 o2 : predicate r = RAbsorb -> run_rule env bld r o1 o2 <> None /\ forall n, run_rule env bld r o1 o2 = ret (Some n) -> wf n /\ (size n <= size o1)%nat /\ (width n <= 5)%nat.
Proof.
  intros P. unfold run_rule. rewrite P. destruct (match other _ _ with Str _ => _ | Cls _ => _ end); [|split; discriminate]. cbn [predicate_of].
  destruct o1 as [a| | | | | | | | | | |]; try (split; discriminate). destruct (data o2) as [[d|]|]; try (split; discriminate).
  destruct (a_absorb env a) as [f|]; [|split; discriminate]. split; [discriminate|]. intros n E. apply ret_inj in E. injection E as <-. simpl. auto.
Qed.
Lemma first_rule_In {A} (l : list (EngineModel.rule A)) o1 o2 n : first_rule l o1 o2 = ret (Some n) -> exists r, In r l /\ r o1 o2 = ret (Some n).
Proof.
  induction l as [|r l IH]; simpl; [discriminate|]. intros H. apply obind_ret in H. destruct H as [[m|] [E H]].
  - apply ret_inj in H. injection H as ->. eauto.
  - destruct (IH H) as [r' [? ?]]. eauto.
Qed.

Lemma width_one (k : kind) (ops : list op) : exists B, (5 <= B)%nat /\ Forall (fun o => (width o <= B)%nat) ops /\ B = width (Comp ops) /\ k = k.
Proof. exists (width (Comp ops)). split; [apply Comp_width|]. split; [apply width_max; [apply Comp_width|lia]|auto]. Qed.

End Calc.
