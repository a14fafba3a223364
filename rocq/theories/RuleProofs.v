From Verif Require Import Base RuleModel RuleSpec.

Section RuleProofs.
Context {class : Type} (class_eqb subclass : class -> class -> bool) {pred : Type}.
Hypothesis Hh : hierarchy class_eqb subclass.
Notation rule := (rule class pred).
Notation other := (other class_eqb).
Notation must_follow := (must_follow class_eqb subclass).
Notation subjects_eqb := (subjects_eqb class_eqb).
Notation index_of := (index_of class_eqb).
Notation set_rule_list := (set_rule_list class_eqb subclass).
Notation del_rule_list := (del_rule_list class_eqb).
Notation well_ordered := (well_ordered class_eqb subclass).

Lemma subject_eqb_spec a b : subject_eqb class_eqb a b = true <-> a = b.
Proof.
  destruct a as [x|c], b as [y|d]; simpl; try (split; [discriminate|congruence]).
  - destruct x, y; simpl; split; congruence.
  - rewrite (class_eqb_spec _ _ Hh). split; congruence.
Qed.
Lemma subjects_eqb_spec a b : subjects_eqb a b = true <-> a = b.
Proof.
  unfold RuleModel.subjects_eqb. rewrite andb_true_iff, !subject_eqb_spec. destruct a, b; simpl. split; [intros []; congruence|].
  intros [= -> ->]; auto.
Qed.
Lemma subjects_eqb_refl a : subjects_eqb a a = true.
Proof. apply subjects_eqb_spec. reflexivity. Qed.

Lemma index_of_Some l s i : index_of l s = Some i -> nth_error l i = Some s /\ i < length l.
Proof.
  revert i. induction l as [|x l IH]; simpl; [discriminate|]. destruct (subjects_eqb x s) eqn:E.
  - intros i [= <-]. apply subjects_eqb_spec in E. subst. simpl. split; [reflexivity|lia].
  - destruct (index_of l s) as [k|]; [|discriminate]. intros i [= <-]. destruct (IH k eq_refl). split; [assumption|lia].
Qed.
Lemma index_of_None l s : index_of l s = None <-> ~ In s l.
Proof.
  induction l as [|x l IH]; simpl; [tauto|]. destruct (subjects_eqb x s) eqn:E.
  - apply subjects_eqb_spec in E. subst. split; [discriminate|]. intros H; exfalso; auto.
  - assert (x <> s). { intros ->. rewrite subjects_eqb_refl in E. discriminate. }
    destruct (index_of l s); simpl; split; try discriminate; intros.
    + exfalso. destruct IH as [_ IH]. assert (Some n = None) by (apply IH; tauto). discriminate.
    + destruct IH as [IH _]. specialize (IH eq_refl). tauto.
    + reflexivity.
Qed.

(** Lists as prefix ++ rule :: suffix *)
Lemma replace_at_split (l1 : list rule) x l2 r : replace_at (l1 ++ x :: l2) (length l1) r = l1 ++ r :: l2.
Proof. induction l1; simpl; congruence. Qed.
Lemma delete_at_split (l1 : list rule) x l2 : delete_at (l1 ++ x :: l2) (length l1) = l1 ++ l2.
Proof. induction l1; simpl; congruence. Qed.
Lemma insert_at_split (l : list rule) i r : exists l1 l2, l = l1 ++ l2 /\ l1 = firstn i l /\ l2 = skipn i l /\ insert_at l i r = l1 ++ r :: l2.
Proof. exists (firstn i l), (skipn i l). repeat split. symmetry. apply firstn_skipn. Qed.

Definition ordered (l : list rule) : Prop := ForallOrdPairs (fun r s => ~ must_follow r s) l.
Lemma ordered_spec l : ordered l <-> well_ordered l.
Proof.
  unfold ordered, RuleSpec.well_ordered. split.
  - intros H. induction H as [|x l Hx Hl IH]; intros i j r s L A B; [destruct i; discriminate|].
    destruct j as [|j]; [lia|]. destruct i as [|i]; simpl in A, B.
    + injection A as <-. rewrite Forall_forall in Hx. apply Hx. eapply nth_error_In; eauto.
    + apply (IH i j r s); [lia|auto|auto].
  - induction l as [|x l IH]; intros H; constructor.
    + rewrite Forall_forall. intros s Hs. apply In_nth_error in Hs. destruct Hs as [n Hn]. apply (H 0 (S n) x s); [lia|reflexivity|exact Hn].
    + apply IH. intros i j r s L A B. apply (H (S i) (S j) r s); [lia|assumption|assumption].
Qed.
Lemma ordered_app l1 l2 : ordered (l1 ++ l2) <-> ordered l1 /\ ordered l2 /\ forall r s, In r l1 -> In s l2 -> ~ must_follow r s.
Proof.
  unfold ordered. induction l1 as [|x l1 IH]; simpl.
  - split; [intros H; split; [constructor|]; split; [exact H|simpl; tauto]|tauto].
  - split.
    + intros H. inversion H; subst. apply IH in H3. destruct H3 as [A [B C]]. rewrite Forall_app in H2. destruct H2 as [D E].
      split; [constructor; assumption|]. split; [assumption|]. intros r s [<-|Hr] Hs; [|auto]. rewrite Forall_forall in E. auto.
    + intros [A [B C]]. inversion A; subst. constructor.
      * rewrite Forall_app. split; [assumption|]. rewrite Forall_forall. intros s Hs. apply C; auto.
      * apply IH. split; [assumption|]. split; [assumption|]. intros; apply C; auto.
Qed.

(** The structure of an ordered list: symbols first. *)
Lemma index_true_Some l i : index_true l = Some i -> exists l1 l2, l = l1 ++ true :: l2 /\ length l1 = i /\ Forall (eq false) l1.
Proof.
  revert i. induction l as [|b l IH]; simpl; [discriminate|]. destruct b.
  - intros i [= <-]. exists [], l. auto.
  - intros i. destruct (index_true l) as [k|]; [|discriminate]. intros [= <-]. destruct (IH k eq_refl) as [l1 [l2 [A [B C]]]].
    exists (false :: l1), l2. subst. repeat split; auto.
Qed.
Lemma index_true_None l : index_true l = None -> Forall (eq false) l.
Proof.
  induction l as [|b l IH]; simpl; [constructor|]. destruct b; [discriminate|]. destruct (index_true l); [discriminate|]. auto.
Qed.

Lemma map_split {A B} (f : A -> B) l l1 b l2 : map f l = l1 ++ b :: l2 ->
  exists m1 a m2, l = m1 ++ a :: m2 /\ map f m1 = l1 /\ f a = b /\ map f m2 = l2.
Proof.
  revert l. induction l1 as [|x l1 IH]; intros [|y l]; simpl; try discriminate.
  - intros [= <- <-]. exists [], y, l. auto.
  - intros [= <- H]. destruct (IH l H) as [m1 [a [m2 [E1 [E2 [E3 E4]]]]]]. exists (y :: m1), a, m2. subst. auto.
Qed.

Lemma classes_of_ordered l : ordered l -> Forall (fun r : rule => is_class (other r) = true) l ->
  exists cs, classes (map other l) = Some cs /\ map other l = map Cls cs.
Proof.
  induction l as [|r l IH]; intros Ho Hc; [exists []; auto|]. inversion Hc; subst. inversion Ho; subst.
  destruct (IH H4 H2) as [cs [A B]]. simpl. destruct (other r) as [s|c]; [discriminate|].
  exists (c :: cs). rewrite A, B. auto.
Qed.

(** What the position of a class is: everything before is a symbol or not a proper superclass, everything after is not a
    symbol nor a proper subclass. *)
Lemma class_position_ok l c : ordered l -> exists i, class_position class_eqb subclass l c = Some i
  /\ (forall r, In r (firstn i l) -> match other r with Str _ => True | Cls d => subclass c d = true -> d = c end)
  /\ (forall r, In r (skipn i l) -> match other r with Str _ => False | Cls d => subclass d c = true -> d = c end).
Proof.
  intros Ho. unfold class_position. destruct (index_true (map (fun r => is_class (other r)) l)) as [index|] eqn:E.
  2:{ exists (length l). split; [reflexivity|]. rewrite firstn_all, skipn_all. split; [|simpl; tauto].
      apply index_true_None in E. intros r Hr. rewrite Forall_map, Forall_forall in E. specialize (E r Hr).
      destruct (other r); [exact I|discriminate]. }
  apply index_true_Some in E. destruct E as [b1 [b2 [E [Len Fal]]]]. symmetry in E.
  symmetry in E. destruct (map_split _ _ _ _ _ E) as [m1 [a [m2 [E1 [E2 [E3 E4]]]]]].
  assert (Li : length m1 = index) by (rewrite <- Len, <- E2, map_length; reflexivity).
  subst l. assert (Hm1 : forall r, In r m1 -> exists s, other r = Str s).
  { intros r Hr. rewrite <- E2, Forall_map, Forall_forall in Fal. specialize (Fal r Hr). destruct (other r); [eauto|discriminate]. }
  assert (Sk : skipn index (m1 ++ a :: m2) = a :: m2) by (rewrite <- Li, skipn_app, skipn_all, Nat.sub_diag; reflexivity).
  rewrite Sk. apply ordered_app in Ho. destruct Ho as [Ho1 [Ho2 Ho12]].
  assert (Hcl : Forall (fun r : rule => is_class (other r) = true) (a :: m2)).
  { constructor; [exact E3|]. inversion Ho2; subst. rewrite Forall_forall in *. intros r Hr. specialize (H1 r Hr).
    unfold RuleSpec.must_follow in H1. destruct (other a); [discriminate|]. destruct (other r); [exfalso; auto|reflexivity]. }
  destruct (classes_of_ordered _ Ho2 Hcl) as [cs [C1 C2]]. rewrite C1.
  set (l2 := a :: m2) in *. clearbody l2.
  assert (Lcs : length cs = length l2) by (rewrite <- (map_length other l2), C2, map_length; reflexivity).
  (* a position p in l2 *)
  assert (Main : exists p, match index_true (map (fun d => subclass c d) cs) with
                   | Some i => i
                   | None => match index_true (rev (map (fun d => subclass d c) cs)) with
                             | Some i => length (map (fun d => subclass d c) cs) - i | None => 0 end end = p
     /\ p <= length cs
     /\ (forall d, In d (firstn p cs) -> subclass c d = true -> d = c)
     /\ (forall d, In d (skipn p cs) -> subclass d c = true -> d = c)).
  { assert (Ocs : forall x y z d e, cs = x ++ d :: y ++ e :: z -> subclass e d = true -> e = d).
    { intros x y z d e Ecs S. destruct (class_eqb e d) eqn:Q; [apply (class_eqb_spec _ _ Hh); exact Q|]. exfalso.
      rewrite Ecs, map_app in C2. simpl in C2. apply map_split in C2. destruct C2 as [k1 [u [k2 [D1 [D2 [D3 D4]]]]]].
      rewrite map_app in D4. simpl in D4. apply map_split in D4. destruct D4 as [k3 [w [k4 [F1 [F2 [F3 F4]]]]]]. subst.
      apply ordered_app in Ho2. destruct Ho2 as [_ [Ho2 _]]. inversion Ho2; subst. rewrite Forall_forall in H1.
      apply (H1 w); [apply in_app_iff; right; left; reflexivity|]. unfold RuleSpec.must_follow. rewrite D3, F3. split; [exact S|].
      intros <-. assert (class_eqb e e = true) by (apply (class_eqb_spec _ _ Hh); reflexivity). congruence. }
    destruct (index_true (map (fun d => subclass c d) cs)) as [i|] eqn:I1.
    - exists i. split; [reflexivity|]. apply index_true_Some in I1. destruct I1 as [b3 [b4 [I1 [I2 I3]]]].
      apply map_split in I1. destruct I1 as [c1 [d0 [c2 [J1 [J2 [J3 J4]]]]]].
      assert (Lc1 : length c1 = i) by (rewrite <- I2, <- J2, map_length; reflexivity). subst cs.
      split; [rewrite app_length; simpl; lia|]. rewrite <- Lc1, firstn_app, firstn_all, Nat.sub_diag, app_nil_r.
      rewrite skipn_app, skipn_all, Nat.sub_diag. split.
      + intros d Hd. rewrite <- J2, Forall_map, Forall_forall in I3. specialize (I3 d Hd). congruence.
      + intros d [<-|Hd] S; [apply (sub_antisym _ _ Hh); assumption|].
        apply in_split in Hd. destruct Hd as [c3 [c4 ->]].
        assert (Edd : d = d0) by (apply (Ocs c1 c3 c4 d0 d); [reflexivity|apply (sub_trans _ _ Hh _ c); assumption]).
        subst. apply (sub_antisym _ _ Hh); assumption.
    - apply index_true_None in I1. rewrite Forall_map, Forall_forall in I1.
      destruct (index_true (rev (map (fun d => subclass d c) cs))) as [i|] eqn:I2.
      + eexists. split; [reflexivity|]. apply index_true_Some in I2. destruct I2 as [b3 [b4 [I2 [I3 I4]]]].
        rewrite map_length. split; [lia|]. split.
        * intros d Hd S. exfalso. assert (In d cs) by (rewrite <- (firstn_skipn (length cs - i) cs); apply in_app_iff; left; exact Hd).
          specialize (I1 d H). congruence.
        * intros d Hd S. exfalso.
          assert (E5 : map (fun d => subclass d c) cs = rev b4 ++ true :: rev b3).
          { rewrite <- (rev_involutive (map _ cs)), I2, rev_app_distr. simpl. rewrite <- app_assoc. reflexivity. }
          assert (Lb : length cs = length b4 + 1 + i).
          { rewrite <- (map_length (fun d => subclass d c)), E5, app_length. simpl. rewrite !rev_length. lia. }
          assert (In (subclass d c) (skipn (length cs - i) (map (fun d => subclass d c) cs))) by (rewrite skipn_map; apply in_map with (f := fun d => subclass d c); exact Hd).
          rewrite E5 in H. replace (length cs - i) with (length (rev b4) + 1) in H by (rewrite rev_length; lia).
          rewrite skipn_app, skipn_all2 in H by lia. replace (length (rev b4) + 1 - length (rev b4)) with 1 in H by lia. simpl in H.
          apply in_rev in H. rewrite Forall_forall in I4. specialize (I4 _ H). congruence.
      + exists 0. split; [reflexivity|]. split; [lia|]. simpl. split; [tauto|].
        apply index_true_None in I2. intros d Hd S. exfalso. rewrite Forall_forall in I2.
        specialize (I2 true). assert (false = true); [|discriminate]. apply I2. apply -> in_rev. rewrite <- S.
        apply in_map with (f := fun d => subclass d c). exact Hd. }
  destruct Main as [p [-> [Lp [P1 P2]]]]. exists (index + p). split; [reflexivity|].
  assert (F : firstn (index + p) (m1 ++ l2) = m1 ++ firstn p l2).
  { rewrite firstn_app, firstn_all2 by lia. replace (index + p - length m1) with p by lia. reflexivity. }
  assert (G : skipn (index + p) (m1 ++ l2) = skipn p l2).
  { rewrite skipn_app, skipn_all2 by lia. replace (index + p - length m1) with p by lia. reflexivity. }
  rewrite F, G. split.
  - intros r Hr. apply in_app_iff in Hr. destruct Hr as [Hr|Hr]; [destruct (Hm1 r Hr) as [s ->]; exact I|].
    assert (H : In (other r) (map Cls (firstn p cs))) by (rewrite <- firstn_map, <- C2, firstn_map; apply in_map; exact Hr).
    apply in_map_iff in H. destruct H as [d [<- Hd]]. apply P1, Hd.
  - intros r Hr. assert (H : In (other r) (map Cls (skipn p cs))) by (rewrite <- skipn_map, <- C2, skipn_map; apply in_map; exact Hr).
    apply in_map_iff in H. destruct H as [d [<- Hd]]. apply P2, Hd.
Qed.

Notation others := (others class_eqb (pred := pred)).

Lemma others_app s l1 l2 : others s (l1 ++ l2) = others s l1 ++ others s l2.
Proof. unfold RuleSpec.others. apply filter_app. Qed.
Lemma others_same r : others (subjects r) [r] = [].
Proof. unfold RuleSpec.others. simpl. rewrite subjects_eqb_refl. reflexivity. Qed.
Lemma others_all s l : ~ In s (map subjects l) -> others s l = l.
Proof.
  unfold RuleSpec.others. induction l as [|x l IH]; simpl; [reflexivity|]. intros H. destruct (subjects_eqb (subjects x) s) eqn:E.
  - apply subjects_eqb_spec in E. tauto.
  - simpl. rewrite IH; tauto.
Qed.
Lemma split_nth {A} (l : list A) i a : nth_error l i = Some a -> exists l1 l2, l = l1 ++ a :: l2 /\ length l1 = i.
Proof.
  intros H. destruct (nth_error_split l i H) as [l1 [l2 [E1 E2]]]. eauto.
Qed.
Lemma other_subjects (r r' : rule) : subjects r = subjects r' -> other r = other r'.
Proof. unfold RuleModel.other, reference. intros ->. reflexivity. Qed.

Lemma ordered_others l l' : map other l = map other l' -> ordered l -> ordered l'.
Proof.
  revert l'. induction l as [|r l IH]; intros [|r' l']; simpl; try discriminate; [auto|].
  intros [= E1 E2] H. inversion H; subst. constructor; [|apply IH; assumption].
  rewrite Forall_forall in *. intros s' Hs'. apply (in_map other) in Hs'. rewrite <- E2 in Hs'. apply in_map_iff in Hs'.
  destruct Hs' as [s [Es Hs]]. specialize (H2 s Hs). unfold RuleSpec.must_follow in *. rewrite <- E1, <- Es. exact H2.
Qed.

Lemma set_rule_list_ok (r : rule) l : ordered l -> unique l ->
  exists l', set_rule_list r l = Ok l' /\ ordered l' /\ unique l' /\ In r l'
    /\ others (subjects r) l' = others (subjects r) l
    /\ (In (subjects r) (map subjects l) -> map subjects l' = map subjects l)
    /\ (~ In (subjects r) (map subjects l) -> length l' = S (length l) /\ ((exists s, other r = Str s) -> l' = r :: l)).
Proof.
  intros Ho Hu. unfold RuleModel.set_rule_list. destruct (index_of (map subjects l) (subjects r)) as [i|] eqn:E.
  - apply index_of_Some in E. destruct E as [E _]. rewrite nth_error_map in E.
    destruct (nth_error l i) as [r0|] eqn:E0; [|discriminate]. injection E as E.
    destruct (split_nth _ _ _ E0) as [l1 [l2 [-> Li]]]. subst i. rewrite replace_at_split.
    exists (l1 ++ r :: l2). assert (Em : map subjects (l1 ++ r :: l2) = map subjects (l1 ++ r0 :: l2)).
    { rewrite !map_app. simpl. rewrite E. reflexivity. }
    split; [reflexivity|]. split; [|split; [|split; [|split; [|split]]]].
    + apply (ordered_others (l1 ++ r0 :: l2)); [|exact Ho]. rewrite !map_app. simpl. rewrite (other_subjects r0 r E). reflexivity.
    + unfold unique. rewrite Em. exact Hu.
    + apply in_app_iff. right. left. reflexivity.
    + rewrite !others_app. f_equal. change (r :: l2) with ([r] ++ l2). change (r0 :: l2) with ([r0] ++ l2).
      rewrite !others_app. rewrite others_same. rewrite <- E, others_same. reflexivity.
    + intros _. exact Em.
    + intros H. exfalso. apply H. rewrite map_app. simpl. rewrite <- E. apply in_app_iff. right. left. reflexivity.
  - apply index_of_None in E.
    assert (Gen : forall i, ordered (insert_at l i r) -> In r (insert_at l i r) /\ unique (insert_at l i r)
               /\ others (subjects r) (insert_at l i r) = others (subjects r) l /\ length (insert_at l i r) = S (length l)).
    { intros i _. destruct (insert_at_split l i r) as [l1 [l2 [El [_ [_ ->]]]]]. split; [apply in_app_iff; right; left; reflexivity|]. split.
      - unfold unique in *. rewrite El in Hu, E. rewrite map_app in *. simpl. apply NoDup_Add with (a := subjects r) (l := map subjects l1 ++ map subjects l2); [apply Add_app|].
        split; assumption.
      - split; [|rewrite El, !app_length; simpl; lia]. rewrite El, !others_app. f_equal. change (r :: l2) with ([r] ++ l2).
        rewrite others_app, others_same. reflexivity. }
    destruct (other r) as [s|c] eqn:Eo.
    + assert (O : ordered (insert_at l 0 r)).
      { unfold insert_at. simpl. constructor; [|exact Ho]. rewrite Forall_forall. intros x _. unfold RuleSpec.must_follow.
        rewrite Eo. auto. }
      destruct (Gen 0 O) as [A [B [C D]]]. exists (insert_at l 0 r). repeat (split; [first [reflexivity|assumption]|]).
      split; [tauto|]. intros _. split; [exact D|]. intros _. reflexivity.
    + destruct (class_position_ok l c Ho) as [i [Ei [P1 P2]]]. rewrite Ei.
      assert (O : ordered (insert_at l i r)).
      { unfold insert_at. rewrite <- (firstn_skipn i l) in Ho. apply ordered_app in Ho. destruct Ho as [O1 [O2 O12]].
        apply ordered_app. split; [exact O1|]. split.
        - constructor; [|exact O2]. rewrite Forall_forall. intros x Hx. specialize (P2 x Hx). unfold RuleSpec.must_follow. rewrite Eo.
          destruct (other x); [tauto|]. intros [S N]. apply N, P2, S.
        - intros x y Hx [<-|Hy]; [|apply O12; assumption]. specialize (P1 x Hx). unfold RuleSpec.must_follow. rewrite Eo.
          destruct (other x) as [|d]; [auto|]. intros [S N]. apply N. symmetry. apply P1, S. }
      destruct (Gen i O) as [A [B [C D]]]. exists (insert_at l i r). repeat (split; [first [reflexivity|assumption]|]).
      split; [tauto|]. intros _. split; [exact D|]. intros [s Hs]. discriminate.
Qed.

Lemma ordered_sub l1 x l2 : ordered (l1 ++ x :: l2) -> ordered (l1 ++ l2).
Proof.
  rewrite !ordered_app. intros [A [B C]]. inversion B; subst. repeat split; auto. intros r s Hr Hs. apply C; [exact Hr|right; exact Hs].
Qed.
Lemma del_rule_list_ok s (l : list rule) : ordered l -> unique l ->
  (In s (map subjects l) -> exists l', del_rule_list s l = Ok l' /\ l' = others s l /\ length l = S (length l') /\ ordered l' /\ unique l')
  /\ (~ In s (map subjects l) -> del_rule_list s l = Raise ValueError).
Proof.
  intros Ho Hu. unfold RuleModel.del_rule_list. destruct (index_of (map subjects l) s) as [i|] eqn:E.
  - pose proof E as E'. apply index_of_Some in E. destruct E as [E _]. split; [intros _|].
    2:{ intros H. exfalso. apply H. eapply nth_error_In; eauto. }
    rewrite nth_error_map in E. destruct (nth_error l i) as [r0|] eqn:E0; [|discriminate]. injection E as E.
    destruct (split_nth _ _ _ E0) as [l1 [l2 [-> Li]]]. subst i. rewrite delete_at_split. exists (l1 ++ l2).
    split; [reflexivity|]. unfold unique in *. rewrite map_app in *. simpl in Hu. pose proof (NoDup_remove_2 _ _ _ Hu) as Hn.
    apply NoDup_remove_1 in Hu. split; [|split; [rewrite !app_length; simpl; lia|split; [eapply ordered_sub; eauto|exact Hu]]].
    rewrite others_app. change (r0 :: l2) with ([r0] ++ l2). rewrite others_app. rewrite <- E. rewrite others_same. simpl.
    rewrite in_app_iff in Hn. rewrite !others_all by tauto. reflexivity.
  - apply index_of_None in E. tauto.
Qed.

(** Histories *)
Notation set_rule := (set_rule class_eqb subclass).
Notation del_rule := (del_rule class_eqb).
Definition good (l : list rule) : Prop := ordered l /\ unique l.

Lemma set_rule_good o r (t : lists class pred) : all_lists good t -> exists t', set_rule o r t = Ok t' /\ all_lists good t'.
Proof.
  intros [A [M [L R]]]. unfold RuleModel.set_rule. destruct o.
  - set (r' := if reference class_eqb r then swap r else r). destruct (set_rule_list_ok r' _ (proj1 A) (proj2 A)) as [l' [E [O [U _]]]].
    rewrite E. simpl. eexists. split; [reflexivity|]. repeat split; simpl; try assumption; try apply M; try apply L; try apply R.
  - set (r' := if reference class_eqb r then swap r else r). destruct (set_rule_list_ok r' _ (proj1 M) (proj2 M)) as [l' [E [O [U _]]]].
    rewrite E. simpl. eexists. split; [reflexivity|]. repeat split; simpl; try assumption; try apply A; try apply L; try apply R.
  - destruct (reference class_eqb r).
    + destruct (set_rule_list_ok r _ (proj1 R) (proj2 R)) as [l' [E [O [U _]]]].
      rewrite E. simpl. eexists. split; [reflexivity|]. repeat split; simpl; try assumption; try apply A; try apply L; try apply M.
    + destruct (set_rule_list_ok r _ (proj1 L) (proj2 L)) as [l' [E [O [U _]]]].
      rewrite E. simpl. eexists. split; [reflexivity|]. repeat split; simpl; try assumption; try apply A; try apply R; try apply M.
Qed.
Lemma del_list_good s (l l' : list rule) : good l -> del_rule_list s l = Ok l' -> good l'.
Proof.
  intros [O U] E. destruct (del_rule_list_ok s l O U) as [D1 D2].
  destruct (index_of (map subjects l) s) as [i|] eqn:Ei.
  - apply index_of_Some in Ei. destruct D1 as [l2 [E2 [_ [_ [O2 U2]]]]]; [eapply nth_error_In; apply Ei|].
    rewrite E in E2. injection E2 as <-. split; assumption.
  - apply index_of_None in Ei. rewrite (D2 Ei) in E. discriminate.
Qed.
Lemma del_rule_good o s (t t' : lists class pred) : all_lists good t -> del_rule o s t = Ok t' -> all_lists good t'.
Proof.
  intros [A [M [L R]]]. unfold RuleModel.del_rule. destruct o.
  - destruct (del_rule_list _ (add_rules t)) eqn:E; simpl; [|discriminate]. intros [= <-]. apply del_list_good in E; [|exact A]. repeat split; simpl; try apply E; try apply M; try apply L; try apply R.
  - destruct (del_rule_list _ (mul_rules t)) eqn:E; simpl; [|discriminate]. intros [= <-]. apply del_list_good in E; [|exact M]. repeat split; simpl; try apply E; try apply A; try apply L; try apply R.
  - destruct (is_dot class_eqb (snd s)).
    + destruct (del_rule_list _ (right_rules t)) eqn:E; simpl; [|discriminate]. intros [= <-]. apply del_list_good in E; [|exact R]. repeat split; simpl; try apply E; try apply M; try apply L; try apply A.
    + destruct (del_rule_list _ (left_rules t)) eqn:E; simpl; [|discriminate]. intros [= <-]. apply del_list_good in E; [|exact L]. repeat split; simpl; try apply E; try apply M; try apply A; try apply R.
Qed.

Lemma good_nil : good [].
Proof. split; constructor. Qed.
Lemma history_good (cs : list (call class pred)) : all_lists good (history class_eqb subclass cs).
Proof.
  unfold history. assert (G : forall t, all_lists good t -> all_lists good (fold_left (exec class_eqb subclass) cs t)).
  { induction cs as [|c cs IH]; simpl; [auto|]. intros t Ht. apply IH. unfold exec. destruct c as [o r|o s].
    - destruct (set_rule_good o r t Ht) as [t' [-> Ht']]. exact Ht'.
    - destruct (del_rule o s t) as [t'|] eqn:E; [|exact Ht]. eapply del_rule_good; eauto. }
  apply G. repeat split; apply good_nil.
Qed.

Lemma set_rules_history (cs : list (call class pred)) o rs :
  set_rules class_eqb subclass o rs (history class_eqb subclass cs) = Ok (history class_eqb subclass (cs ++ rev (map (Set_ o) rs))).
Proof.
  induction rs as [|r rs IH]; simpl; [rewrite app_nil_r; reflexivity|]. rewrite IH. simpl.
  destruct (set_rule_good o r _ (history_good (cs ++ rev (map (Set_ o) rs)))) as [t' [E _]]. rewrite E. f_equal.
  unfold history. rewrite app_assoc, fold_left_app. simpl. fold (history class_eqb subclass (cs ++ rev (map (Set_ o) rs))).
  unfold exec. rewrite E. reflexivity.
Qed.

(** One set_rule or del_rule after a history. *)
Lemma set_rule_effect o r (t : lists class pred) : all_lists good t ->
  exists t', set_rule o r t = Ok t'
    /\ (let s := kept_as class_eqb o (subjects r) in
        let l := list_of class_eqb o (subjects r) t in let l' := list_of class_eqb o (subjects r) t' in
        In {| subjects := s; predicate := predicate r |} l' /\ others s l' = others s l
        /\ (In s (map subjects l) -> map subjects l' = map subjects l)
        /\ (~ In s (map subjects l) -> length l' = S (length l)))
    /\ forall o' s', ~ same_list class_eqb o (subjects r) o' s' -> list_of class_eqb o' s' t' = list_of class_eqb o' s' t.
Proof.
  intros [A [M [L R]]]. unfold RuleModel.set_rule.
  assert (Er : r = {| subjects := subjects r; predicate := predicate r |}) by (destruct r; reflexivity).
  destruct o; simpl.
  - change (reference class_eqb r) with (is_dot class_eqb (snd (subjects r))).
    set (r' := if is_dot class_eqb (snd (subjects r)) then swap r else r).
    assert (Er' : r' = {| subjects := if is_dot class_eqb (snd (subjects r)) then (snd (subjects r), fst (subjects r)) else subjects r; predicate := predicate r |}).
    { unfold r', swap. destruct (is_dot class_eqb (snd (subjects r))); auto. }
    destruct (set_rule_list_ok r' _ (proj1 A) (proj2 A)) as [l' [E [O [U [I1 [I2 [I3 I4]]]]]]]. rewrite E. simpl.
    eexists. split; [reflexivity|]. split.
    + rewrite Er' in I1, I2, I3, I4. simpl in *. repeat split; auto. intros H. apply I4, H.
    + intros o' s' H. destruct o'; simpl; try reflexivity. exfalso. apply H. split; [reflexivity|discriminate].
  - change (reference class_eqb r) with (is_dot class_eqb (snd (subjects r))).
    set (r' := if is_dot class_eqb (snd (subjects r)) then swap r else r).
    assert (Er' : r' = {| subjects := if is_dot class_eqb (snd (subjects r)) then (snd (subjects r), fst (subjects r)) else subjects r; predicate := predicate r |}).
    { unfold r', swap. destruct (is_dot class_eqb (snd (subjects r))); auto. }
    destruct (set_rule_list_ok r' _ (proj1 M) (proj2 M)) as [l' [E [O [U [I1 [I2 [I3 I4]]]]]]]. rewrite E. simpl.
    eexists. split; [reflexivity|]. split.
    + rewrite Er' in I1, I2, I3, I4. simpl in *. repeat split; auto. intros H. apply I4, H.
    + intros o' s' H. destruct o'; simpl; try reflexivity. exfalso. apply H. split; [reflexivity|discriminate].
  - change (reference class_eqb r) with (is_dot class_eqb (snd (subjects r))).
    destruct (is_dot class_eqb (snd (subjects r))) eqn:D.
    + destruct (set_rule_list_ok r _ (proj1 R) (proj2 R)) as [l' [E [O [U [I1 [I2 [I3 I4]]]]]]]. rewrite E. simpl.
      eexists. split; [reflexivity|]. split.
      * simpl. rewrite Er in I1. repeat split; auto. intros H. apply I4, H.
      * intros o' s' H. destruct o'; simpl; try reflexivity. destruct (is_dot class_eqb (snd s')) eqn:D'; [|reflexivity]. exfalso. apply H.
        split; [reflexivity|]. congruence.
    + destruct (set_rule_list_ok r _ (proj1 L) (proj2 L)) as [l' [E [O [U [I1 [I2 [I3 I4]]]]]]]. rewrite E. simpl.
      eexists. split; [reflexivity|]. split.
      * simpl. rewrite Er in I1. repeat split; auto. intros H. apply I4, H.
      * intros o' s' H. destruct o'; simpl; try reflexivity. destruct (is_dot class_eqb (snd s')) eqn:D'; [reflexivity|]. exfalso. apply H.
        split; [reflexivity|]. congruence.
Qed.

Lemma del_rule_effect o s (t : lists class pred) : all_lists good t ->
  let k := kept_as class_eqb o s in
  (In k (map subjects (list_of class_eqb o s t)) ->
     exists t', del_rule o s t = Ok t' /\ list_of class_eqb o s t' = others k (list_of class_eqb o s t)
       /\ length (list_of class_eqb o s t) = S (length (list_of class_eqb o s t'))
       /\ forall o' s', ~ same_list class_eqb o s o' s' -> list_of class_eqb o' s' t' = list_of class_eqb o' s' t)
  /\ (~ In k (map subjects (list_of class_eqb o s t)) -> del_rule o s t = Raise ValueError).
Proof.
  intros [A [M [L R]]]. unfold RuleModel.del_rule. destruct o; simpl.
  - destruct (del_rule_list_ok (if is_dot class_eqb (snd s) then (snd s, fst s) else s) _ (proj1 A) (proj2 A)) as [D1 D2]. split.
    + intros H. destruct (D1 H) as [l' [E [E1 [E2 _]]]]. rewrite E. simpl. eexists. split; [reflexivity|]. simpl. split; [exact E1|]. split; [exact E2|].
      intros o' s' N. destruct o'; simpl; try reflexivity. exfalso. apply N. split; [reflexivity|discriminate].
    + intros H. rewrite (D2 H). reflexivity.
  - destruct (del_rule_list_ok (if is_dot class_eqb (snd s) then (snd s, fst s) else s) _ (proj1 M) (proj2 M)) as [D1 D2]. split.
    + intros H. destruct (D1 H) as [l' [E [E1 [E2 _]]]]. rewrite E. simpl. eexists. split; [reflexivity|]. simpl. split; [exact E1|]. split; [exact E2|].
      intros o' s' N. destruct o'; simpl; try reflexivity. exfalso. apply N. split; [reflexivity|discriminate].
    + intros H. rewrite (D2 H). reflexivity.
  - destruct (is_dot class_eqb (snd s)) eqn:D.
    + destruct (del_rule_list_ok s _ (proj1 R) (proj2 R)) as [D1 D2]. split.
      * intros H. destruct (D1 H) as [l' [E [E1 [E2 _]]]]. rewrite E. simpl. eexists. split; [reflexivity|]. simpl. split; [exact E1|]. split; [exact E2|].
        intros o' s' N. destruct o'; simpl; try reflexivity. destruct (is_dot class_eqb (snd s')) eqn:D'; [|reflexivity]. exfalso. apply N. split; [reflexivity|congruence].
      * intros H. rewrite (D2 H). reflexivity.
    + destruct (del_rule_list_ok s _ (proj1 L) (proj2 L)) as [D1 D2]. split.
      * intros H. destruct (D1 H) as [l' [E [E1 [E2 _]]]]. rewrite E. simpl. eexists. split; [reflexivity|]. simpl. split; [exact E1|]. split; [exact E2|].
        intros o' s' N. destruct o'; simpl; try reflexivity. destruct (is_dot class_eqb (snd s')) eqn:D'; [reflexivity|]. exfalso. apply N. split; [reflexivity|congruence].
      * intros H. rewrite (D2 H). reflexivity.
Qed.

(** The left list has the rules whose first subject is '.', the right list the others. *)
Definition sides (t : lists class pred) : Prop :=
  (forall r, In r (left_rules t) -> reference class_eqb r = false) /\ (forall r, In r (right_rules t) -> reference class_eqb r = true).
Lemma others_In s l x : In x l -> subjects x = s \/ In x (others s l).
Proof.
  intros H. destruct (subjects_eqb (subjects x) s) eqn:E; [left; apply subjects_eqb_spec, E|right].
  unfold RuleSpec.others. apply filter_In. rewrite E. auto.
Qed.
Lemma others_sub s l x : In x (others s l) -> In x l.
Proof. unfold RuleSpec.others. rewrite filter_In. tauto. Qed.
Lemma set_rule_sides o r t t' : all_lists good t -> sides t -> set_rule o r t = Ok t' -> sides t'.
Proof.
  intros [A [M [L R]]] [SL SR]. unfold RuleModel.set_rule. destruct o.
  - destruct (set_rule_list _ _); simpl; [|discriminate]. intros [= <-]. split; assumption.
  - destruct (set_rule_list _ _); simpl; [|discriminate]. intros [= <-]. split; assumption.
  - destruct (reference class_eqb r) eqn:D.
    + destruct (set_rule_list_ok r _ (proj1 R) (proj2 R)) as [l' [E [_ [_ [_ [I2 _]]]]]]. rewrite E. simpl. intros [= <-]. split; [exact SL|].
      simpl. intros x Hx. destruct (others_In (subjects r) _ _ Hx) as [Ex|Ex].
      * unfold reference in *. rewrite Ex. exact D.
      * rewrite I2 in Ex. apply SR. eapply others_sub; eauto.
    + destruct (set_rule_list_ok r _ (proj1 L) (proj2 L)) as [l' [E [_ [_ [_ [I2 _]]]]]]. rewrite E. simpl. intros [= <-]. split; [|exact SR].
      simpl. intros x Hx. destruct (others_In (subjects r) _ _ Hx) as [Ex|Ex].
      * unfold reference in *. rewrite Ex. exact D.
      * rewrite I2 in Ex. apply SL. eapply others_sub; eauto.
Qed.
Lemma del_list_sub s (l l' : list rule) x : good l -> del_rule_list s l = Ok l' -> In x l' -> In x l.
Proof.
  intros [O U] E. destruct (del_rule_list_ok s l O U) as [D1 D2].
  destruct (index_of (map subjects l) s) as [i|] eqn:Ei.
  - apply index_of_Some in Ei. destruct D1 as [l2 [E2 [E3 _]]]; [eapply nth_error_In; apply Ei|].
    rewrite E in E2. injection E2 as <-. rewrite E3. apply others_sub.
  - apply index_of_None in Ei. rewrite (D2 Ei) in E. discriminate.
Qed.
Lemma del_rule_sides o s t t' : all_lists good t -> sides t -> del_rule o s t = Ok t' -> sides t'.
Proof.
  intros [A [M [L R]]] [SL SR]. unfold RuleModel.del_rule. destruct o.
  - destruct (del_rule_list _ _); simpl; [|discriminate]. intros [= <-]. split; assumption.
  - destruct (del_rule_list _ _); simpl; [|discriminate]. intros [= <-]. split; assumption.
  - destruct (is_dot class_eqb (snd s)).
    + destruct (del_rule_list _ (right_rules t)) eqn:E; simpl; [|discriminate]. intros [= <-]. split; [exact SL|].
      simpl. intros x Hx. apply SR. eapply del_list_sub; eauto.
    + destruct (del_rule_list _ (left_rules t)) eqn:E; simpl; [|discriminate]. intros [= <-]. split; [|exact SR].
      simpl. intros x Hx. apply SL. eapply del_list_sub; eauto.
Qed.
Lemma history_sides (cs : list (call class pred)) : sides (history class_eqb subclass cs).
Proof.
  unfold history. assert (G : forall t, all_lists good t -> sides t -> sides (fold_left (exec class_eqb subclass) cs t)).
  { induction cs as [|c cs IH]; simpl; [auto|]. intros t Ht Hs. apply IH; unfold exec; destruct c as [o r|o s].
    - destruct (set_rule_good o r t Ht) as [t' [-> Ht']]. exact Ht'.
    - destruct (del_rule o s t) as [t'|] eqn:E; [|exact Ht]. eapply del_rule_good; eauto.
    - destruct (set_rule o r t) as [t'|] eqn:E; [|exact Hs]. eapply set_rule_sides; eauto.
    - destruct (del_rule o s t) as [t'|] eqn:E; [|exact Hs]. eapply del_rule_sides; eauto. }
  apply G; [repeat split; apply good_nil|]. split; simpl; tauto.
Qed.

(** Sorting *)
Lemma insert_sorted_in k r (l : list rule) x : In x (insert_sorted k r l) <-> x = r \/ In x l.
Proof.
  induction l as [|y l IH]; simpl; [intuition|]. destruct (k r <=? k y)%Z; simpl; [intuition|]. rewrite IH. intuition.
Qed.
Definition sorted (k : rule -> Z) (l : list rule) : Prop := ForallOrdPairs (fun r s => (k r <= k s)%Z) l.
Lemma sort_sorted (k : rule -> Z) l : sorted k (sort k l).
Proof.
  unfold sorted. induction l as [|r l IH]; simpl; [constructor|].
  assert (G : forall m, ForallOrdPairs (fun r s => (k r <= k s)%Z) m -> ForallOrdPairs (fun r s => (k r <= k s)%Z) (insert_sorted k r m)).
  { induction m as [|y m IHm]; simpl; intros H; [repeat constructor|]. inversion H; subst. destruct (Z.leb_spec (k r) (k y)).
    - constructor; [|exact H]. constructor; [assumption|]. rewrite Forall_forall in *. intros z Hz. specialize (H2 z Hz). lia.
    - constructor; [|apply IHm; assumption]. rewrite Forall_forall in *. intros z Hz. apply insert_sorted_in in Hz. destruct Hz as [->|Hz]; [lia|auto]. }
  apply G, IH.
Qed.
Lemma sort_in k l x : In x (sort (class := class) (pred := pred) k l) <-> In x l.
Proof. induction l as [|r l IH]; simpl; [tauto|]. rewrite insert_sorted_in, IH. intuition. Qed.
Lemma sort_length k l : length (sort (class := class) (pred := pred) k l) = length l.
Proof.
  induction l as [|r l IH]; simpl; [reflexivity|]. rewrite <- IH. generalize (sort k l). intros m.
  induction m as [|y m IHm]; simpl; [reflexivity|]. destruct (k r <=? k y)%Z; simpl; [reflexivity|]. rewrite IHm. reflexivity.
Qed.

Definition is_symbol (r : rule) : bool := negb (is_class (other r)).
Lemma sort_symbols (k : rule -> Z) l :
  (forall r, In r l -> is_symbol r = true -> k r = 0%Z) -> (forall r, In r l -> is_symbol r = false -> (0 < k r)%Z) ->
  filter is_symbol (sort k l) = filter is_symbol l.
Proof.
  induction l as [|r l IH]; simpl; intros H0 H1; [reflexivity|].
  specialize (IH (fun r' H => H0 r' (or_intror H)) (fun r' H => H1 r' (or_intror H))).
  destruct (is_symbol r) eqn:E.
  - rewrite <- IH. assert (Hs : forall x, In x (sort k l) -> (0 <= k x)%Z).
    { intros x Hx. apply sort_in in Hx. destruct (is_symbol x) eqn:Ex; [rewrite (H0 x); auto; lia|].
      specialize (H1 x (or_intror Hx) Ex). lia. }
    destruct (sort k l) as [|y m]; simpl; [rewrite E; reflexivity|].
    specialize (Hs y (or_introl eq_refl)). rewrite (H0 r (or_introl eq_refl) E). destruct (Z.leb_spec 0 (k y)); [|lia]. simpl. rewrite E. reflexivity.
  - rewrite <- IH. generalize (sort k l). intros m. induction m as [|y m IHm]; simpl; [rewrite E; reflexivity|].
    destruct (k r <=? k y)%Z; simpl; [rewrite E; reflexivity|]. rewrite IHm. reflexivity.
Qed.

Variable mro : class -> nat.
Hypothesis Hmro : forall c d, subclass d c = true -> d <> c -> mro c < mro d.

Lemma pair_order m1 m2 (t1 t2 : lists class pred) :
  (forall c, mro c < 500) -> m1 < 500 -> m2 < 500 ->
  (forall r, In r (left_rules t1) -> reference class_eqb r = false) ->
  (forall r, In r (right_rules t2) -> reference class_eqb r = true) ->
  let l := rules_for_pair class_eqb mro m1 m2 t1 t2 in
  (forall r, In r l <-> In r (left_rules t1) \/ In r (right_rules t2))
  /\ length l = length (left_rules t1) + length (right_rules t2)
  /\ (forall i j r s, i < j -> nth_error l i = Some r -> nth_error l j = Some s -> reference class_eqb r = reference class_eqb s -> ~ must_follow r s)
  /\ filter is_symbol l = filter is_symbol (left_rules t1) ++ filter is_symbol (right_rules t2).
Proof.
  intros Bm B1 B2 Hl Hr l. unfold l, rules_for_pair. split; [|split; [|split]].
  - intros r. rewrite sort_in, in_app_iff. reflexivity.
  - rewrite sort_length, app_length. reflexivity.
  - intros i j r s L Ei Ej Er. pose proof (sort_sorted (key_rule class_eqb mro m1 m2) (left_rules t1 ++ right_rules t2)) as S.
    assert (K : (key_rule class_eqb mro m1 m2 r <= key_rule class_eqb mro m1 m2 s)%Z).
    { clear - S L Ei Ej. unfold sorted in S. revert i j L Ei Ej. induction S as [|x m Hx Hm IH]; intros i j L Ei Ej; [destruct i; discriminate|].
      destruct j as [|j]; [lia|]. destruct i as [|i]; simpl in *.
      - injection Ei as <-. rewrite Forall_forall in Hx. apply Hx. eapply nth_error_In; eauto.
      - apply (IH i j); [lia|assumption|assumption]. }
    unfold RuleSpec.must_follow, key_rule in *. destruct (other r) as [a|c]; [auto|]. destruct (other s) as [b|d].
    + intros _. specialize (Bm c). destruct (reference class_eqb r); lia.
    + intros [Hs Hn]. specialize (Hmro c d Hs Hn). rewrite <- Er in K. destruct (reference class_eqb r); lia.
  - rewrite <- filter_app. apply sort_symbols.
    + intros r _ H. unfold key_rule, is_symbol in *. destruct (other r); [reflexivity|discriminate].
    + intros r _ H. unfold key_rule, is_symbol in *. destruct (other r) as [|c]; [discriminate|]. specialize (Bm c). destruct (reference class_eqb r); lia.
Qed.
End RuleProofs.
