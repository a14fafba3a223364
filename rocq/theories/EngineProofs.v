From Coq Require Import Permutation.
From Verif Require Import Base Algebra EngineModel EngineSpec.

Lemma ret_inj {A} (a b : A) : ret a = ret b -> a = b.
Proof. unfold ret. congruence. Qed.
Lemma obind_ret {A B} (m : out A) (f : A -> out B) b : obind m f = ret b -> exists a, m = ret a /\ f a = ret b.
Proof. destruct m as [[a|e]|]; simpl; try discriminate. exists a. auto. Qed.
Lemma obind_None {A B} (m : out A) (f : A -> out B) : obind m f = None -> m = None \/ exists a, m = ret a /\ f a = None.
Proof. destruct m as [[a|e]|]; simpl; try discriminate; eauto. right. exists a. auto. Qed.

Section Lists.
Context {A : Type}.
Lemma split_nth (l : list A) i a : nth_error l i = Some a -> exists l1 l2, l = l1 ++ a :: l2 /\ length l1 = i.
Proof. intros H. destruct (nth_error_split l i H) as [l1 [l2 [E1 E2]]]. eauto. Qed.
Lemma set_at_split (l1 : list A) a l2 o : set_at (l1 ++ a :: l2) (length l1) o = l1 ++ o :: l2.
Proof. induction l1; simpl; congruence. Qed.
Lemma del_at_split (l1 : list A) a l2 : del_at (l1 ++ a :: l2) (length l1) = l1 ++ l2.
Proof. induction l1; simpl; congruence. Qed.
Lemma split_nth2 (l : list A) i a b : nth_error l i = Some a -> nth_error l (S i) = Some b ->
  exists l1 l2, l = l1 ++ a :: b :: l2 /\ length l1 = i.
Proof.
  intros Ha Hb. destruct (split_nth l i a Ha) as [l1 [l2 [-> Hl]]]. exists l1.
  rewrite nth_error_app2 in Hb by lia. replace (S i - length l1) with 1 in Hb by lia. simpl in Hb.
  destruct l2 as [|b' l2]; [discriminate|]. simpl in Hb. injection Hb as ->. eauto.
Qed.
Lemma set_at_split2 (l1 : list A) a b l2 o : set_at (l1 ++ a :: b :: l2) (S (length l1)) o = l1 ++ a :: o :: l2.
Proof. induction l1; simpl in *; congruence. Qed.
Lemma del_at_split2 (l1 : list A) a b l2 : del_at (l1 ++ a :: b :: l2) (S (length l1)) = l1 ++ a :: l2.
Proof. induction l1; simpl in *; congruence. Qed.
End Lists.

Section Composition.
Context {op X : Type} (den : op -> X -> X -> Prop) (good : op -> Prop).
Notation composes := (composes den).
Variable rules : op -> op -> list (rule op).

Lemma composes_app l1 l2 x y : composes (l1 ++ l2) x y <-> exists z, composes l2 x z /\ composes l1 z y.
Proof.
  revert y. induction l1 as [|o l1 IH]; intros y; simpl.
  - split; [intros H; exists y; auto|intros [z [H <-]]; auto].
  - split.
    + intros [z [H Ho]]. apply IH in H. destruct H as [w [H1 H2]]. exists w. split; [auto|]. exists z. auto.
    + intros [w [H1 [z [H2 Ho]]]]. exists z. split; [apply IH; exists w; auto|auto].
Qed.
Lemma composes_mid l1 m m' l2 : (forall x y, composes m x y -> composes m' x y) ->
  forall x y, composes (l1 ++ m ++ l2) x y -> composes (l1 ++ m' ++ l2) x y.
Proof.
  intros H x y. rewrite !composes_app. intros [z [Hz1 Hz2]]. apply composes_app in Hz1. destruct Hz1 as [w [Hw1 Hw2]].
  exists z. split; [|auto]. apply composes_app. exists w. auto.
Qed.

Lemma first_rule_sound l o1 o2 n : Forall (sound_rule den good o1 o2) l -> first_rule l o1 o2 = ret (Some n) ->
  Forall good (list_of_news n) /\ forall x y, composes [o1; o2] x y -> composes (list_of_news n) x y.
Proof.
  intros Hl. induction Hl as [|r l Hr Hl IH]; simpl; [discriminate|].
  intros H. apply obind_ret in H. destruct H as [[n'|] [E H]]; [|auto]. apply ret_inj in H. injection H as ->.
  eapply Hr; eauto.
Qed.

Hypothesis Hrules : forall o1 o2, good o1 -> good o2 -> Forall (sound_rule den good o1 o2) (rules o1 o2).

Lemma comp_loop_sound fuel : forall k ops ops', Forall good ops -> comp_loop rules fuel k ops = ret ops' ->
  Forall good ops' /\ forall x y, composes ops x y -> composes ops' x y.
Proof.
  induction fuel as [|fuel IH]; intros k ops ops' G; cbn [comp_loop]; [discriminate|].
  destruct k as [|i]. { intros H. apply ret_inj in H. subst. auto. }
  destruct (nth_error ops i) as [o1|] eqn:E1; [|discriminate]. destruct (nth_error ops (S i)) as [o2|] eqn:E2; [|discriminate].
  destruct (split_nth2 _ _ _ _ E1 E2) as [l1 [l2 [-> <-]]].
  apply Forall_app in G. destruct G as [G1 G2]. inversion G2 as [|? ? Go1 G2']; subst. inversion G2' as [|? ? Go2 G3]; subst.
  intros H. apply obind_ret in H. destruct H as [n [Hn H]]. destruct n as [n|].
  2:{ apply IH in H; auto. apply Forall_app; auto. }
  destruct (first_rule_sound _ _ _ _ (Hrules o1 o2 Go1 Go2) Hn) as [Gn Sn].
  assert (Step : forall m, list_of_news n = m -> Forall good (l1 ++ m ++ l2) /\
            forall x y, composes (l1 ++ o1 :: o2 :: l2) x y -> composes (l1 ++ m ++ l2) x y).
  { intros m <-. split; [rewrite !Forall_app; auto|]. change (o1 :: o2 :: l2) with ([o1; o2] ++ l2). apply composes_mid, Sn. }
  destruct n as [o|l].
  - rewrite del_at_split2, set_at_split in H. destruct (Step [o] eq_refl) as [S1 S2]. simpl in S1, S2.
    destruct (length l1 <? length (l1 ++ o :: l2) - 1); apply IH in H; auto; destruct H as [A B]; split; auto.
  - destruct l as [|a [|b [|]]]; try discriminate. rewrite set_at_split, set_at_split2 in H.
    destruct (Step [a; b] eq_refl) as [S1 S2]. simpl in S1, S2.
    destruct (S (length l1) <? length (l1 ++ a :: b :: l2) - 1); apply IH in H; auto; destruct H as [A B]; split; auto.
Qed.
Lemma comp_rules_sound fuel ops ops' : Forall good ops -> comp_rules rules fuel ops = ret ops' ->
  Forall good ops' /\ forall x y, composes ops x y -> composes ops' x y.
Proof.
  unfold comp_rules. destruct (length ops <=? 1).
  - intros G H. apply ret_inj in H. subst. auto.
  - intros G H. eapply comp_loop_sound; eauto.
Qed.

(** Termination *)
Variable weight : op -> nat.
Definition weights (l : list op) : nat := fold_right (fun o n => S (weight o) + n) 0 l.
Lemma weights_app l l' : weights (l ++ l') = weights l + weights l'.
Proof. induction l; simpl; lia. Qed.
Lemma weights_length l : length l <= weights l.
Proof. induction l; simpl; lia. Qed.

Hypothesis Hterm : forall o1 o2, good o1 -> good o2 -> first_rule (rules o1 o2) o1 o2 <> None.
Hypothesis Hweight : forall o1 o2 n, good o1 -> good o2 -> first_rule (rules o1 o2) o1 o2 = ret (Some n) -> weights (list_of_news n) < weights [o1; o2].

Lemma comp_loop_terminates fuel : forall k ops, Forall good ops -> k < length ops \/ k = 0 ->
  (weights ops) * S (weights ops) + k < fuel -> comp_loop rules fuel k ops <> None.
Proof.
  induction fuel as [|fuel IH]; intros k ops G Hk Hf; [lia|]. cbn [comp_loop].
  destruct k as [|i]; [discriminate|].
  destruct (nth_error ops i) as [o1|] eqn:E1; [|discriminate]. destruct (nth_error ops (S i)) as [o2|] eqn:E2; [|discriminate].
  destruct (split_nth2 _ _ _ _ E1 E2) as [l1 [l2 [-> <-]]].
  pose proof G as G0. apply Forall_app in G. destruct G as [G1 G2]. inversion G2 as [|? ? Go1 G2']; subst. inversion G2' as [|? ? Go2 G3]; subst.
  intros H. apply obind_None in H. destruct H as [H|[n [Hn H]]]; [eapply Hterm; [exact Go1|exact Go2|exact H]|].
  destruct n as [n|].
  2:{ revert H. apply IH; [exact G0|rewrite app_length in *; simpl in *; lia|lia]. }
  pose proof (Hweight _ _ _ Go1 Go2 Hn) as W.
  assert (Gn : Forall good (list_of_news n)) by (apply (first_rule_sound _ _ _ _ (Hrules o1 o2 Go1 Go2) Hn)).
  rewrite weights_app in Hf. simpl in Hf, W.
  destruct n as [o|l].
  - rewrite del_at_split2, set_at_split in H. simpl in W.
    assert (Q : forall k', k' < length (l1 ++ o :: l2) \/ k' = 0 -> comp_loop rules fuel k' (l1 ++ o :: l2) <> None).
    { intros k' Hk'. apply IH; auto.
      - apply Forall_app. inversion Gn; subst. auto.
      - rewrite app_length in Hk'. simpl in Hk'. rewrite weights_app. simpl. pose proof (weights_length l1). pose proof (weights_length l2). nia. }
    destruct (length l1 <? length (l1 ++ o :: l2) - 1) eqn:L; revert H; apply Q; rewrite app_length in *; simpl in *.
    + apply Nat.ltb_lt in L. lia.
    + lia.
  - destruct l as [|a [|b [|]]]; try discriminate. rewrite set_at_split, set_at_split2 in H. simpl in W.
    assert (Q : forall k', k' < length (l1 ++ a :: b :: l2) -> comp_loop rules fuel k' (l1 ++ a :: b :: l2) <> None).
    { intros k' Hk'. apply IH; auto.
      - apply Forall_app. inversion Gn as [|? ? ? Gn']; subst. inversion Gn'; subst. auto.
      - rewrite app_length in Hk'. simpl in Hk'. rewrite weights_app. simpl. pose proof (weights_length l1). pose proof (weights_length l2). nia. }
    destruct (S (length l1) <? length (l1 ++ a :: b :: l2) - 1) eqn:L; revert H; apply Q; rewrite app_length in *; simpl in *.
    + apply Nat.ltb_lt in L. lia.
    + lia.
Qed.
Lemma comp_rules_terminates fuel ops : Forall good ops -> (weights ops + 1) * (weights ops + 1) < fuel -> comp_rules rules fuel ops <> None.
Proof.
  intros G Hf. unfold comp_rules. destruct (Nat.leb_spec (length ops) 1); [discriminate|].
  apply comp_loop_terminates; auto; [lia|]. pose proof (weights_length ops). nia.
Qed.
End Composition.

Section Commutative.
Context {op X : Type} (den : op -> X -> X -> Prop) (comb : X -> X -> X -> Prop) (good : op -> Prop).
Hypothesis Hcomb : commutative_operation comb.
Notation combines := (combines den comb).
Notation total := (total comb).

Lemma total_cons a ys y : ys <> [] -> total (a :: ys) y <-> exists b, total ys b /\ comb a b y.
Proof. destruct ys; [congruence|]. simpl. tauto. Qed.
Lemma total_swap a b ys y : total (a :: b :: ys) y -> total (b :: a :: ys) y.
Proof.
  destruct ys as [|c ys].
  - simpl. intros [d [<- H]]. exists a. split; auto. apply (comb_comm _ Hcomb), H.
  - intros H. apply total_cons in H; [|congruence]. destruct H as [u [Hu H]]. apply total_cons in Hu; [|congruence].
    destruct Hu as [w [Hw Hu]]. apply (comb_comm _ Hcomb) in H. apply (comb_comm _ Hcomb) in Hu.
    (* u = b + w, y = a + u: comb w b u, comb u a y *)
    destruct (comb_assoc _ Hcomb _ _ _ _ _ Hu H) as [v [Hv Hy]].
    (* comb b a v, comb w v y *)
    apply (comb_comm _ Hcomb) in Hy. destruct (comb_assoc _ Hcomb _ _ _ _ _ Hv Hy) as [z [Hz1 Hz2]].
    apply total_cons; [congruence|]. exists z. split; [|exact Hz2]. apply total_cons; [congruence|]. exists w. auto.
Qed.
Lemma total_perm ys ys' y : Permutation ys ys' -> total ys y -> total ys' y.
Proof.
  intros P. revert y. induction P; intros y0 H; auto.
  - destruct l as [|b l].
    + apply Permutation_nil in P. subst. exact H.
    + assert (l' <> []). { intros ->. apply Permutation_sym, Permutation_nil in P. discriminate. }
      apply total_cons in H; [|congruence]. destruct H as [v [H1 H2]]. apply total_cons; [auto|]. exists v. auto.
  - apply total_swap, H.
Qed.
Lemma combines_perm l l' x y : Permutation l l' -> combines l x y -> combines l' x y.
Proof.
  intros P [ys [F T]]. destruct (Permutation_Forall2 P F) as [ys' [P' F']]. exists ys'. split; [exact F'|].
  eapply total_perm; eauto.
Qed.
Lemma combines_merge o1 o2 o l x y : (forall x y, combines [o1; o2] x y -> den o x y) -> combines (o1 :: o2 :: l) x y -> combines (o :: l) x y.
Proof.
  intros H [ys [F T]]. inversion F as [|? a ? ys1 F1 F2]; subst. inversion F2 as [|? b ? ys2 F3 F4]; subst.
  destruct ys2 as [|c ys2].
  - inversion F4; subst. exists [y]. split; [|reflexivity]. constructor; [|constructor]. apply H. exists [a; b]. split; [|exact T]. auto.
  - apply total_cons in T; [|congruence]. destruct T as [u [Tu Cu]]. apply total_cons in Tu; [|congruence]. destruct Tu as [w [Tw Cw]].
    apply (comb_comm _ Hcomb) in Cu. apply (comb_comm _ Hcomb) in Cw. destruct (comb_assoc _ Hcomb _ _ _ _ _ Cw Cu) as [v [Hv Hy]].
    exists (v :: c :: ys2). split.
    + constructor; [|exact F4]. apply H. exists [a; b]. split; [auto|]. simpl. exists b. split; auto. apply (comb_comm _ Hcomb), Hv.
    + apply total_cons; [congruence|]. exists w. split; [exact Tw|]. apply (comb_comm _ Hcomb), Hy.
Qed.

Variable rules : op -> list (op -> op -> out (option op)).
Lemma first_rule1_sound (P : op -> op -> op -> Prop) l o1 o2 o :
  (forall r, In r l -> forall o, r o1 o2 = ret (Some o) -> P o1 o2 o) -> first_rule1 l o1 o2 = ret (Some o) -> P o1 o2 o.
Proof.
  induction l as [|r l IH]; simpl; intros H E; [discriminate|]. apply obind_ret in E. destruct E as [[n|] [E1 E2]].
  - apply ret_inj in E2. injection E2 as ->. eapply H; eauto.
  - apply IH; auto. intros r' Hr'. apply H. auto.
Qed.
Lemma find_merge_sound (P : op -> op -> op -> Prop) i oi rest : forall j0 j o,
  (forall r, In r (rules oi) -> forall oj o, In oj rest -> r oi oj = ret (Some o) -> P oi oj o) ->
  find_merge rules i j0 oi rest = ret (Some (j, o)) ->
  j <> i /\ exists oj, nth_error rest (j - j0) = Some oj /\ j0 <= j /\ P oi oj o.
Proof.
  induction rest as [|x rest IH]; simpl; intros j0 j o H E; [discriminate|].
  assert (Rec : find_merge rules i (S j0) oi rest = ret (Some (j, o)) ->
             j <> i /\ exists oj, nth_error (x :: rest) (j - j0) = Some oj /\ j0 <= j /\ P oi oj o).
  { intros E'. apply IH in E'; [|intros; eapply H; eauto]. destruct E' as [N [oj [E1 [L Q]]]]. split; [exact N|].
    exists oj. replace (j - j0) with (S (j - S j0)) by lia. simpl. repeat split; auto. lia. }
  destruct (Nat.eqb_spec j0 i) as [->|N]; [exact (Rec E)|].
  apply obind_ret in E. destruct E as [[n|] [E1 E2]]; [|exact (Rec E2)].
  apply ret_inj in E2. injection E2 as <- <-. split; [exact N|]. exists x. rewrite Nat.sub_diag. simpl. repeat split; auto.
  apply (first_rule1_sound P (rules oi)); auto. intros r Hr o' E'. eapply H; eauto.
Qed.

(** The two operands that are merged, up to the order. *)
Lemma merge_perm (ops : list op) i j oi oj o : i <> j -> nth_error ops i = Some oi -> nth_error ops j = Some oj ->
  exists rest, Permutation ops (oi :: oj :: rest)
    /\ Permutation (set_at (del_at ops j) (if j <? i then i - 1 else i) o) (o :: rest)
    /\ length (set_at (del_at ops j) (if j <? i then i - 1 else i) o) = length ops - 1
    /\ nth_error (set_at (del_at ops j) (if j <? i then i - 1 else i) o) (if j <? i then i - 1 else i) = Some o.
Proof.
  intros N Ei Ej. destruct (Nat.ltb_spec j i) as [L|L].
  - destruct (split_nth _ _ _ Ej) as [l1 [l2 [-> <-]]]. rewrite nth_error_app2 in Ei by lia.
    replace (i - length l1) with (S (i - length l1 - 1)) in Ei by lia. simpl in Ei.
    destruct (split_nth _ _ _ Ei) as [l3 [l4 [-> El]]]. rewrite del_at_split.
    replace (i - 1) with (length (l1 ++ l3)) by (rewrite app_length; lia). rewrite app_assoc, set_at_split.
    exists (l1 ++ l3 ++ l4). split; [|split; [|split]].
    + transitivity (oj :: l1 ++ l3 ++ oi :: l4); [symmetry; apply Permutation_middle|].
      transitivity (oj :: oi :: l1 ++ l3 ++ l4); [|apply perm_swap]. apply perm_skip. rewrite !app_assoc. symmetry. apply Permutation_middle.
    + rewrite (app_assoc l1 l3 l4). symmetry. apply Permutation_middle.
    + rewrite !app_length. simpl. rewrite !app_length. simpl. lia.
    + rewrite nth_error_app2 by lia. rewrite Nat.sub_diag. reflexivity.
  - destruct (split_nth _ _ _ Ei) as [l1 [l2 [-> <-]]]. rewrite nth_error_app2 in Ej by lia.
    replace (j - length l1) with (S (j - length l1 - 1)) in Ej by lia. simpl in Ej.
    destruct (split_nth _ _ _ Ej) as [l3 [l4 [-> El]]].
    replace j with (length (l1 ++ oi :: l3)) by (rewrite app_length; simpl; lia).
    change (oi :: l3 ++ oj :: l4) with ((oi :: l3) ++ oj :: l4). rewrite app_assoc, del_at_split.
    rewrite <- (app_assoc l1 (oi :: l3) l4). change ((oi :: l3) ++ l4) with (oi :: l3 ++ l4). rewrite set_at_split.
    exists (l1 ++ l3 ++ l4). split; [|split; [|split]].
    + rewrite <- app_assoc. simpl. rewrite <- Permutation_middle. apply perm_skip. rewrite app_assoc. rewrite <- Permutation_middle.
      rewrite <- app_assoc. reflexivity.
    + symmetry. apply Permutation_middle.
    + rewrite !app_length. simpl. rewrite !app_length. simpl. lia.
    + rewrite nth_error_app2 by lia. rewrite Nat.sub_diag. reflexivity.
Qed.

Hypothesis Hrules : forall o o', good o -> good o' -> Forall (sound_rule1 den comb good o o') (rules o).
Lemma good_perm (l l' : list op) : Permutation l l' -> Forall good l -> Forall good l'.
Proof. intros P H. rewrite Forall_forall in *. intros x Hx. apply H. eapply Permutation_in; [symmetry; exact P|exact Hx]. Qed.

Lemma comm_loop_sound fuel : forall i ops ops', Forall good ops -> comm_loop rules fuel i ops = ret ops' ->
  Forall good ops' /\ forall x y, combines ops x y -> combines ops' x y.
Proof.
  induction fuel as [|fuel IH]; intros i ops ops' G; simpl; [discriminate|].
  destruct (nth_error ops i) as [oi|] eqn:Ei.
  2:{ intros H. apply ret_inj in H. subst. auto. }
  intros H. apply obind_ret in H. destruct H as [[[j o]|] [Hn H]]; [|apply IH in H; auto].
  assert (Gi : good oi) by (rewrite Forall_forall in G; apply G; eapply nth_error_In; eauto).
  apply (find_merge_sound (fun oi oj o => good oj -> good o /\ forall x y, combines [oi; oj] x y -> den o x y)) in Hn.
  2:{ intros r Hr oj o' Hj E Gj. pose proof (Hrules oi oj Gi Gj) as Q. rewrite Forall_forall in Q. eapply Q; eauto. }
  destruct Hn as [N [oj [Ej [_ Hs]]]]. rewrite Nat.sub_0_r in Ej.
  assert (Gj : good oj) by (rewrite Forall_forall in G; apply G; eapply nth_error_In; eauto).
  destruct (Hs Gj) as [Go Ho]. assert (N' : i <> j) by auto. destruct (merge_perm ops i j oi oj o N' Ei Ej) as [rest [P1 [P2 _]]].
  apply IH in H.
  - destruct H as [H1 H2]. split; [exact H1|]. intros x y Hc. apply H2. eapply combines_perm; [symmetry; exact P2|].
    eapply combines_merge; [exact Ho|]. eapply combines_perm; eauto.
  - eapply good_perm; [symmetry; exact P2|]. apply (good_perm _ _ P1) in G. inversion G as [|? ? ? G']; subst. inversion G'; subst. auto.
Qed.

Variable is_homothety is_zero : op -> bool.
Hypothesis Hzero : forall o, good o -> is_homothety o = true -> is_zero o = false.
Lemma index_where_Some p (l : list op) i : index_where p l = Some i -> exists o, nth_error l i = Some o /\ p o = true.
Proof.
  revert i. induction l as [|o l IH]; simpl; [discriminate|]. destruct (p o) eqn:E.
  - intros i [= <-]. exists o. auto.
  - destruct (index_where p l) as [k|]; [|discriminate]. intros i [= <-]. apply IH. reflexivity.
Qed.
Lemma move_homothety_perm ops : Forall good ops -> Permutation ops (move_homothety is_homothety is_zero ops).
Proof.
  intros G. unfold move_homothety. destruct (index_where is_homothety ops) as [i|] eqn:E; [|reflexivity].
  apply index_where_Some in E. destruct E as [h [Eh Hh]]. rewrite Eh.
  assert (Gh : good h) by (rewrite Forall_forall in G; apply G; eapply nth_error_In; eauto).
  rewrite (Hzero h Gh Hh). simpl. destruct (split_nth _ _ _ Eh) as [l1 [l2 [-> <-]]].
  rewrite Nat.add_1_r. simpl. rewrite del_at_split. symmetry. apply Permutation_middle.
Qed.
Lemma comm_rules_sound fuel ops ops' : Forall good ops -> comm_rules rules is_homothety is_zero fuel ops = ret ops' ->
  Forall good ops' /\ forall x y, combines ops x y -> combines ops' x y.
Proof.
  unfold comm_rules. destruct (length ops <=? 1).
  - intros G H. apply ret_inj in H. subst. auto.
  - intros G H. apply obind_ret in H. destruct H as [l [E H]]. apply ret_inj in H. subst.
    destruct (comm_loop_sound _ _ _ _ G E) as [G' S]. pose proof (move_homothety_perm l G') as P. split.
    + eapply good_perm; eauto.
    + intros x y H. eapply combines_perm; [exact P|]. apply S, H.
Qed.

(** Termination *)
Hypothesis Hterm : forall o, good o -> forall r o', good o' -> In r (rules o) -> r o o' <> None.
Lemma first_rule1_term l o1 o2 : (forall r, In r l -> r o1 o2 <> None) -> first_rule1 (op := op) l o1 o2 <> None.
Proof.
  induction l as [|r l IH]; simpl; intros H E; [discriminate|]. apply obind_None in E. destruct E as [E|[n [E1 E2]]].
  - eapply H; eauto.
  - destruct n; [discriminate|]. revert E2. apply IH. auto.
Qed.
Lemma find_merge_term i oi rest : good oi -> Forall good rest -> forall j, find_merge rules i j oi rest <> None.
Proof.
  intros Gi Gr. induction Gr as [|x rest Gx Gr IH]; simpl; intros j; [discriminate|].
  destruct (j =? i); [apply IH|]. intros E. apply obind_None in E. destruct E as [E|[n [E1 E2]]].
  - revert E. apply first_rule1_term. intros r Hr. apply Hterm; auto.
  - destruct n; [discriminate|]. revert E2. apply IH.
Qed.
Lemma comm_loop_term fuel : forall i ops, Forall good ops -> i <= length ops -> length ops * S (length ops) + (length ops - i) < fuel ->
  comm_loop rules fuel i ops <> None.
Proof.
  induction fuel as [|fuel IH]; intros i ops G Hi Hf; [lia|]. simpl.
  destruct (nth_error ops i) as [oi|] eqn:Ei; [|discriminate].
  assert (Li : i < length ops) by (apply nth_error_Some; congruence).
  assert (Gi : good oi) by (rewrite Forall_forall in G; apply G; eapply nth_error_In; eauto).
  intros H. apply obind_None in H. destruct H as [H|[n [Hn H]]]; [revert H; apply find_merge_term; auto|].
  destruct n as [[j o]|].
  2:{ revert H. apply IH; auto; lia. }
  apply (find_merge_sound (fun oi oj o => good oj -> good o)) in Hn.
  2:{ intros r Hr oj o' Hj E Gj. pose proof (Hrules oi oj Gi Gj) as Q. rewrite Forall_forall in Q. exact (proj1 (Q r Hr o' E)). }
  destruct Hn as [N [oj [Ej [_ Hs]]]]. rewrite Nat.sub_0_r in Ej.
  assert (Gj : good oj) by (rewrite Forall_forall in G; apply G; eapply nth_error_In; eauto).
  assert (N' : i <> j) by auto. destruct (merge_perm ops i j oi oj o N' Ei Ej) as [rest [P1 [P2 [Ln En]]]].
  assert (Lj : j < length ops) by (apply nth_error_Some; congruence).
  revert H. apply IH.
  - eapply good_perm; [symmetry; exact P2|]. pose proof (good_perm _ _ P1 G) as G1. inversion G1 as [|? ? ? G']; subst. inversion G'; subst. constructor; auto.
  - apply Nat.lt_le_incl. apply nth_error_Some. congruence.
  - rewrite Ln. destruct (j <? i); nia.
Qed.
Lemma comm_rules_term fuel ops : Forall good ops -> (length ops + 1) * (length ops + 1) < fuel -> comm_rules rules is_homothety is_zero fuel ops <> None.
Proof.
  intros G Hf. unfold comm_rules. destruct (length ops <=? 1); [discriminate|]. intros E. apply obind_None in E.
  destruct E as [E|[n [_ E]]]; [|discriminate]. revert E. apply comm_loop_term; auto; nia.
Qed.
End Commutative.

Section Homothety.
Context {K : cring} (keqb : K -> K -> bool) {op X : Type} (den : op -> X -> X -> Prop) (scal : K -> X -> X) (good : op -> Prop).
Add Ring Kring : (rth K).
Variables (linear is_identity : op -> bool) (scalar_of : op -> option K) (identity : op) (homothety : K -> op).
Variables (left right : op -> list (op -> op -> out (option op))).
Hypothesis Hkeqb : forall a b, keqb a b = true -> a = b.
Hypothesis Hs : scaling scal.
Hypothesis Ho : scalar_operators den scal good linear scalar_of identity homothety.
Hypothesis Hleft : forall o d, good o -> Forall (sound_absorption den good o (homothety d)) (left o).
Hypothesis Hright : forall o d, good o -> Forall (sound_absorption den good (homothety d) o) (right o).
Notation composes := (composes den).
Notation group_scalar := (group_scalar scalar_of).
Notation group_rest := (group_rest scalar_of identity).

Lemma group_scalar_from s l : fold_left (fun s o => match scalar_of o with Some d => rmul s d | None => s end) l s = rmul s (group_scalar l).
Proof.
  unfold EngineModel.group_scalar. revert s. induction l as [|o l IH]; intros s; simpl; [ring|].
  rewrite IH, (IH (match scalar_of o with Some d => rmul r1 d | None => r1 end)). destruct (scalar_of o); ring.
Qed.
Lemma group_scalar_cons o l : group_scalar (o :: l) = match scalar_of o with Some d => rmul d (group_scalar l) | None => group_scalar l end.
Proof. unfold EngineModel.group_scalar at 1. simpl. rewrite group_scalar_from. destruct (scalar_of o); ring. Qed.

Lemma group_split l : Forall good l -> Forall (fun o => linear o = true) l -> forall x y, composes l x y ->
  exists y', composes (group_rest l) x y' /\ y = scal (group_scalar l) y'.
Proof.
  intros G L. induction l as [|o l IH]; intros x y H.
  - simpl in *. subst. exists y. split; [reflexivity|]. symmetry. apply (scal_1 _ Hs).
  - apply Forall_cons_iff in G; destruct G as [Go Gl]. apply Forall_cons_iff in L; destruct L as [Lo Ll]. destruct H as [z [Hz Hd]]. destruct (IH Gl Ll x z Hz) as [z' [Hz' ->]].
    rewrite group_scalar_cons. simpl. destruct (scalar_of o) as [d|] eqn:E.
    + exists z'. split; [exists z'; split; [exact Hz'|apply (identity_den _ _ _ _ _ _ _ Ho)]|].
      rewrite (scal_mul _ Hs). eapply (scalar_of_den _ _ _ _ _ _ _ Ho); eauto.
    + apply (linear_homogeneous _ _ _ _ _ _ _ Ho) in Hd; auto. destruct Hd as [y' [Hd ->]]. exists y'. split; [|reflexivity].
      exists z'. auto.
Qed.
Lemma composes_homogeneous l : Forall good l -> Forall (fun o => linear o = true) l -> forall k x y, composes l x y -> composes l (scal k x) (scal k y).
Proof.
  intros G L k. induction l as [|o l IH]; simpl; intros x y H; [congruence|]. apply Forall_cons_iff in G; destruct G as [Go Gl]. apply Forall_cons_iff in L; destruct L as [Lo Ll].
  destruct H as [z [H1 H2]]. exists (scal k z). split; [apply IH; auto|]. apply (linear_homogeneous _ _ _ _ _ _ _ Ho); auto.
  exists y. auto.
Qed.
Lemma group_rest_good l : Forall good l -> Forall good (group_rest l).
Proof.
  intros G. unfold EngineModel.group_rest. rewrite Forall_map. eapply Forall_impl; [|exact G]. intros o Go. simpl.
  destruct (scalar_of o); [apply (identity_good _ _ _ _ _ _ _ Ho)|exact Go].
Qed.
Lemma group_rest_linear l : Forall (fun o => linear o = true) l -> Forall (fun o => linear o = true) (group_rest l).
Proof.
  intros G. unfold EngineModel.group_rest. rewrite Forall_map. eapply Forall_impl; [|exact G]. intros o Go. simpl.
  destruct (scalar_of o); [apply (identity_linear _ _ _ _ _ _ _ Ho)|exact Go].
Qed.
Lemma group_rest_scalars l : scalars scalar_of (group_rest l) = 0.
Proof.
  unfold scalars, EngineModel.group_rest. induction l as [|o l IH]; simpl; [reflexivity|].
  destruct (scalar_of o) eqn:E; [rewrite (identity_scalar _ _ _ _ _ _ _ Ho); exact IH|rewrite E; exact IH].
Qed.

Lemma absorb_sound d ops : Forall good ops -> Forall (fun o => linear o = true) ops -> scalars scalar_of ops = 0 ->
  forall ops', absorb is_identity left right (homothety d) ops = ret (Some ops') ->
  Forall good ops' /\ scalars scalar_of ops' <= 1 /\ forall x y, composes ops x y -> composes ops' x (scal d y).
Proof.
  intros G L C. induction ops as [|o ops IH]; simpl; intros ops' E; [discriminate|].
  apply Forall_cons_iff in G; destruct G as [Go Gl]. apply Forall_cons_iff in L; destruct L as [Lo Ll].
  assert (C1 : scalar_of o = None /\ scalars scalar_of ops = 0).
  { unfold scalars in *. simpl in C. destruct (scalar_of o); [discriminate|]. auto. }
  destruct C1 as [Co C1].
  apply obind_ret in E. destruct E as [[o'|] [E1 E2]].
  - apply ret_inj in E2. injection E2 as <-.
    destruct (is_identity o); [discriminate|]. apply obind_ret in E1. destruct E1 as [n [E1 E3]].
    assert (Q : good o' /\ forall z w, den o z w -> den o' z (scal d w)).
    { destruct n as [o1|].
      - apply ret_inj in E3. injection E3 as ->.
        apply (first_rule1_sound (fun o h o' => good o' /\ forall x y, composes [o; h] x y -> den o' x y)) in E1.
        2:{ intros r Hr o1 E. pose proof (Hleft o d Go) as Q. rewrite Forall_forall in Q. apply (Q r Hr) in E; auto. }
        destruct E1 as [E4 E5]. split; [exact E4|]. intros z w Hw. apply E5. simpl. exists (scal d z). split.
        + exists z. split; [reflexivity|]. apply (homothety_den _ _ _ _ _ _ _ Ho).
        + apply (linear_homogeneous _ _ _ _ _ _ _ Ho); auto. exists w. auto.
      - apply (first_rule1_sound (fun h o o' => good o' /\ forall x y, composes [h; o] x y -> den o' x y)) in E3.
        2:{ intros r Hr o1 E. pose proof (Hright o d Go) as Q. rewrite Forall_forall in Q. apply (Q r Hr) in E; auto. }
        destruct E3 as [E4 E5]. split; [exact E4|]. intros z w Hw. apply E5. simpl. exists w. split.
        + exists z. auto.
        + apply (homothety_den _ _ _ _ _ _ _ Ho). }
    destruct Q as [Q1 Q2]. split; [constructor; auto|]. split.
    + unfold scalars in *. simpl. destruct (scalar_of o'); simpl; lia.
    + intros x y [z [Hz Hd]]. exists z. split; auto.
  - apply obind_ret in E2. destruct E2 as [r [E2 E3]]. apply ret_inj in E3. destruct r as [r|]; [|discriminate]. injection E3 as <-.
    destruct (IH Gl Ll C1 r E2) as [I1 [I2 I3]]. split; [constructor; auto|]. split.
    + unfold scalars in *. simpl. rewrite Co. exact I2.
    + intros x y [z [Hz Hd]]. exists (scal d z). split; [apply I3, Hz|]. apply (linear_homogeneous _ _ _ _ _ _ _ Ho); auto. exists y. auto.
Qed.

Lemma homothety_group_sound g g' : Forall good g -> Forall (fun o => linear o = true) g ->
  homothety_group keqb is_identity scalar_of identity homothety left right g = ret g' ->
  Forall good g' /\ scalars scalar_of g' <= 1 /\ forall x y, composes g x y -> composes g' x y.
Proof.
  intros G L. unfold homothety_group. destruct (Nat.leb_spec (length g) 1) as [Le|_].
  - intros E. apply ret_inj in E. subst. split; [auto|]. split; [|auto]. unfold scalars. destruct g' as [|o [|]]; simpl in *; try lia.
    destruct (scalar_of o); simpl; lia.
  - pose proof (group_rest_good g G) as G'. pose proof (group_rest_linear g L) as L'. pose proof (group_rest_scalars g) as C'.
    destruct (keqb (group_scalar g) r1) eqn:Q.
    + apply Hkeqb in Q. intros E. apply ret_inj in E. subst. split; [auto|]. split; [lia|]. intros x y H.
      destruct (group_split g G L x y H) as [y' [H1 ->]]. rewrite Q, (scal_1 _ Hs). exact H1.
    + intros E. apply obind_ret in E. destruct E as [[r|] [E1 E2]]; apply ret_inj in E2; subst.
      * destruct (absorb_sound _ _ G' L' C' _ E1) as [A1 [A2 A3]]. split; [auto|]. split; [auto|]. intros x y H.
        destruct (group_split g G L x y H) as [y' [H1 ->]]. apply A3, H1.
      * split; [constructor; [apply (homothety_good _ _ _ _ _ _ _ Ho)|auto]|]. split.
        { unfold scalars in *. simpl. destruct (scalar_of (homothety _)); simpl; lia. }
        intros x y H. destruct (group_split g G L x y H) as [y' [H1 ->]]. exists y'. split; [exact H1|]. apply (homothety_den _ _ _ _ _ _ _ Ho).
Qed.

Definition run (g : bool * list op) : Prop := Forall (fun o => linear o = fst g) (snd g).
Lemma groupby_concat l : concat (map snd (groupby linear l)) = l.
Proof.
  induction l as [|o l IH]; simpl; [reflexivity|]. destruct (groupby linear l) as [|[b g] gs]; simpl in *; [congruence|].
  destruct (Bool.eqb (linear o) b); simpl; congruence.
Qed.
Lemma groupby_runs l : Forall run (groupby linear l).
Proof.
  induction l as [|o l IH]; simpl; [constructor|]. destruct (groupby linear l) as [|[b g] gs].
  - constructor; [|constructor]. constructor; [reflexivity|constructor].
  - inversion IH; subst. destruct (Bool.eqb (linear o) b) eqn:E.
    + apply Bool.eqb_prop in E. constructor; [|auto]. constructor; auto.
    + constructor; [|auto]. constructor; [reflexivity|constructor].
Qed.

Lemma homothety_groups_sound gs : Forall run gs -> Forall (fun g => Forall good (snd g)) gs -> forall r,
  homothety_groups keqb is_identity scalar_of identity homothety left right gs = ret r ->
  exists gs', r = concat gs' /\ Forall2 (run_kept den scalar_of) gs gs' /\ Forall good r.
Proof.
  induction gs as [|[b g] gs IH]; simpl; intros R G r E.
  - apply ret_inj in E. subst. exists []. auto.
  - inversion R; subst. inversion G; subst. apply obind_ret in E. destruct E as [g' [E1 E]]. apply obind_ret in E. destruct E as [r' [E2 E]].
    apply ret_inj in E. subst. destruct (IH H2 H4 r' E2) as [gs' [-> [F Gr]]]. exists (g' :: gs'). split; [reflexivity|].
    destruct b.
    + destruct (homothety_group_sound g g' H3 H1 E1) as [A [B C]]. split; [constructor; [|exact F]|apply Forall_app; auto].
      unfold run_kept. simpl. split; [discriminate|]. auto.
    + apply ret_inj in E1. subst. split; [constructor; [|exact F]|apply Forall_app; auto]. unfold run_kept. simpl. split; [auto|]. split; [discriminate|auto].
Qed.
Lemma composes_concat gs gs' : Forall2 (run_kept den scalar_of) gs gs' -> forall x y, composes (concat (map snd gs)) x y -> composes (concat gs') x y.
Proof.
  intros F. induction F as [|g g' gs gs' H F IH]; simpl; intros x y Hc; [exact Hc|]. apply composes_app in Hc. destruct Hc as [z [H1 H2]].
  apply composes_app. exists z. split; [apply IH, H1|]. apply H, H2.
Qed.
Lemma homothety_stage_sound ops ops' : Forall good ops ->
  homothety_stage keqb linear is_identity scalar_of identity homothety left right ops = ret ops' ->
  Forall good ops' /\ (exists gs', ops' = concat gs' /\ Forall2 (run_kept den scalar_of) (groupby linear ops) gs')
  /\ forall x y, composes ops x y -> composes ops' x y.
Proof.
  intros G E. assert (G' : Forall (fun g => Forall good (snd g)) (groupby linear ops)).
  { rewrite <- (groupby_concat ops) in G. apply Forall_concat in G. rewrite Forall_map in G. exact G. }
  destruct (homothety_groups_sound _ (groupby_runs ops) G' _ E) as [gs' [-> [F Gr]]]. split; [exact Gr|]. split; [eauto|].
  intros x y H. rewrite <- (groupby_concat ops) in H. eapply composes_concat; eauto.
Qed.

(** The stage always ends. *)
Hypothesis Tleft : forall o r d, good o -> In r (left o) -> r o (homothety d) <> None.
Hypothesis Tright : forall o r d, good o -> In r (right o) -> r (homothety d) o <> None.
Lemma absorb_term d ops : Forall good ops -> absorb is_identity left right (homothety d) ops <> None.
Proof.
  intros G. induction G as [|o ops Go G IH]; simpl; [discriminate|]. intros E. apply obind_None in E. destruct E as [E|[n [_ E]]].
  - destruct (is_identity o); [discriminate|]. apply obind_None in E. destruct E as [E|[n [_ E]]].
    + revert E. apply first_rule1_term. intros r Hr. apply Tleft; auto.
    + destruct n; [discriminate|]. revert E. apply first_rule1_term. intros r Hr. apply Tright; auto.
  - destruct n; [discriminate|]. apply obind_None in E. destruct E as [E|[? [_ E]]]; [auto|discriminate].
Qed.
Lemma homothety_stage_term ops : Forall good ops -> homothety_stage keqb linear is_identity scalar_of identity homothety left right ops <> None.
Proof.
  intros G. unfold homothety_stage. assert (G' : Forall (fun g => Forall good (snd g)) (groupby linear ops)).
  { rewrite <- (groupby_concat ops) in G. apply Forall_concat in G. rewrite Forall_map in G. exact G. }
  induction G' as [|[b g] gs Gg Gs IH]; simpl; [discriminate|]. intros E. apply obind_None in E. destruct E as [E|[n [_ E]]].
  - destruct b; [|discriminate]. unfold homothety_group in E. destruct (length g <=? 1); [discriminate|].
    destruct (keqb _ _); [discriminate|]. apply obind_None in E. destruct E as [E|[n [_ E]]]; [|destruct n; discriminate].
    revert E. apply absorb_term. apply group_rest_good. exact Gg.
  - apply obind_None in E. destruct E as [E|[? [_ E]]]; [auto|discriminate].
Qed.
End Homothety.

(** No rule applies any more to two neighbours of the operands that are left. *)
Section Normal.
Context {op : Type} (rules : op -> op -> list (rule op)).
Definition settled (o1 o2 : op) : Prop := first_rule (rules o1 o2) o1 o2 = ret None.
(** ... from the position i. *)
Definition settled_from (i : nat) (l : list op) : Prop :=
  forall j a b, i <= j -> nth_error l j = Some a -> nth_error l (S j) = Some b -> settled a b.
Lemma settled_from_same i l1 l2 l : length l1 = length l2 -> length l1 <= i -> settled_from i (l1 ++ l) -> settled_from i (l2 ++ l).
Proof.
  intros E L H j a b Hj Ha Hb. apply (H j a b Hj).
  - rewrite nth_error_app2 in * by lia. rewrite E. exact Ha.
  - rewrite nth_error_app2 in * by lia. rewrite E. exact Hb.
Qed.
Lemma comp_loop_settled fuel : forall k ops ops', settled_from k ops -> comp_loop rules fuel k ops = ret ops' -> settled_from 0 ops'.
Proof.
  induction fuel as [|fuel IH]; intros k ops ops' S; cbn [comp_loop]; [discriminate|].
  destruct k as [|i]. { intros H. apply ret_inj in H. subst. exact S. }
  destruct (nth_error ops i) as [o1|] eqn:E1; [|discriminate]. destruct (nth_error ops (Datatypes.S i)) as [o2|] eqn:E2; [|discriminate].
  destruct (split_nth2 _ _ _ _ E1 E2) as [l1 [l2 [-> <-]]].
  intros H. apply obind_ret in H. destruct H as [n [Hn H]]. destruct n as [[o|l]|].
  - rewrite del_at_split2, set_at_split in H.
    assert (Q : settled_from (Datatypes.S (length l1)) (l1 ++ o :: l2)).
    { intros j a b Hj Ha Hb. apply (S (Datatypes.S j) a b); [lia| |];
        rewrite nth_error_app2 in * by lia.
      - replace (Datatypes.S j - length l1) with (Datatypes.S (Datatypes.S (j - length l1 - 1))) by lia.
        replace (j - length l1) with (Datatypes.S (j - length l1 - 1)) in Ha by lia. exact Ha.
      - replace (Datatypes.S (Datatypes.S j) - length l1) with (Datatypes.S (Datatypes.S (Datatypes.S (j - length l1 - 1)))) by lia.
        replace (Datatypes.S j - length l1) with (Datatypes.S (Datatypes.S (j - length l1 - 1))) in Hb by lia. exact Hb. }
    destruct (Nat.ltb_spec (length l1) (length (l1 ++ o :: l2) - 1)) as [L|L]; apply IH in H; auto.
    intros j a b Hj Ha Hb. assert (Datatypes.S j < length (l1 ++ o :: l2)) by (apply nth_error_Some; congruence). lia.
  - destruct l as [|a [|b [|]]]; try discriminate. rewrite set_at_split, set_at_split2 in H.
    assert (Q : settled_from (Datatypes.S (Datatypes.S (length l1))) (l1 ++ a :: b :: l2)).
    { change (l1 ++ a :: b :: l2) with (l1 ++ [a; b] ++ l2). change (l1 ++ o1 :: o2 :: l2) with (l1 ++ [o1; o2] ++ l2) in S. rewrite app_assoc in *.
      apply (settled_from_same _ (l1 ++ [o1; o2])).
      - rewrite !app_length. reflexivity.
      - rewrite app_length. simpl. lia.
      - intros j u v Hj. apply S. lia. }
    destruct (Nat.ltb_spec (Datatypes.S (length l1)) (length (l1 ++ a :: b :: l2) - 1)) as [L|L]; apply IH in H; auto.
    intros j u v Hj Hu Hv. assert (Datatypes.S j < length (l1 ++ a :: b :: l2)) by (apply nth_error_Some; congruence). lia.
  - apply IH in H; auto. intros j a b Hj Ha Hb. destruct (Nat.eq_dec j (length l1)) as [->|N]; [|apply (S j a b); auto; lia].
    rewrite E1 in Ha. rewrite E2 in Hb. injection Ha as <-. injection Hb as <-. exact Hn.
Qed.
Lemma comp_rules_settled fuel ops ops' : comp_rules rules fuel ops = ret ops' -> settled_from 0 ops'.
Proof.
  unfold comp_rules. destruct (Nat.leb_spec (length ops) 1) as [L|L].
  - intros H. apply ret_inj in H. subst. intros j a b _ Ha Hb. assert (S j < length ops') by (apply nth_error_Some; congruence). lia.
  - apply comp_loop_settled. intros j a b Hj Ha Hb. assert (S j < length ops) by (apply nth_error_Some; congruence). lia.
Qed.
End Normal.

(** The same with a measure of the operands whose sum no rule increases. *)
Section Measure.
Context {op : Type} (good : op -> Prop) (m : op -> nat).
Definition measure (l : list op) : nat := fold_right (fun o n => m o + n) 0 l.
Lemma measure_app l l' : measure (l ++ l') = measure l + measure l'.
Proof. induction l; simpl; lia. Qed.
Lemma measure_perm l l' : Permutation l l' -> measure l = measure l'.
Proof. intros P. induction P; simpl; lia. Qed.

Section Comp.
Variable rules : op -> op -> list (rule op).
Hypothesis Hm : forall o1 o2 n, good o1 -> good o2 -> first_rule (rules o1 o2) o1 o2 = ret (Some n) ->
  exists o, n = One o /\ good o /\ m o <= m o1 + m o2.
Lemma comp_loop_measure fuel : forall k ops ops', Forall good ops -> comp_loop rules fuel k ops = ret ops' ->
  Forall good ops' /\ measure ops' <= measure ops.
Proof.
  induction fuel as [|fuel IH]; intros k ops ops' G; cbn [comp_loop]; [discriminate|].
  destruct k as [|i]. { intros H. apply ret_inj in H. subst. auto. }
  destruct (nth_error ops i) as [o1|] eqn:E1; [|discriminate]. destruct (nth_error ops (S i)) as [o2|] eqn:E2; [|discriminate].
  destruct (split_nth2 _ _ _ _ E1 E2) as [l1 [l2 [-> <-]]]. pose proof G as G0.
  apply Forall_app in G. destruct G as [G1 G2]. apply Forall_cons_iff in G2. destruct G2 as [Go1 G2]. apply Forall_cons_iff in G2. destruct G2 as [Go2 G3].
  intros H. apply obind_ret in H. destruct H as [n [Hn H]]. destruct n as [n|]; [|apply IH in H; auto].
  destruct (Hm _ _ _ Go1 Go2 Hn) as [o [-> [Go Mo]]]. rewrite del_at_split2, set_at_split in H.
  assert (G' : Forall good (l1 ++ o :: l2)) by (apply Forall_app; split; [exact G1|constructor; auto]).
  assert (M : measure (l1 ++ o :: l2) <= measure (l1 ++ o1 :: o2 :: l2)) by (rewrite !measure_app; simpl; lia).
  destruct (length l1 <? length (l1 ++ o :: l2) - 1); apply IH in H; auto; destruct H as [A B]; split; [auto|lia|auto|lia].
Qed.
Lemma comp_rules_measure fuel ops ops' : Forall good ops -> comp_rules rules fuel ops = ret ops' -> Forall good ops' /\ measure ops' <= measure ops.
Proof.
  intros G. unfold comp_rules. destruct (length ops <=? 1).
  - intros H. apply ret_inj in H. subst. auto.
  - apply comp_loop_measure. exact G.
Qed.
Variable N : nat.
Hypothesis Ht : forall o1 o2, good o1 -> good o2 -> m o1 + m o2 <= N -> first_rule (rules o1 o2) o1 o2 <> None.
Lemma comp_loop_measure_term fuel : forall k ops, Forall good ops -> measure ops <= N -> k < length ops \/ k = 0 ->
  length ops * S (length ops) + k < fuel -> comp_loop rules fuel k ops <> None.
Proof.
  induction fuel as [|fuel IH]; intros k ops G HN Hk Hf; [lia|]. cbn [comp_loop].
  destruct k as [|i]; [discriminate|].
  destruct (nth_error ops i) as [o1|] eqn:E1; [|discriminate]. destruct (nth_error ops (S i)) as [o2|] eqn:E2; [|discriminate].
  destruct (split_nth2 _ _ _ _ E1 E2) as [l1 [l2 [-> <-]]]. pose proof G as G0.
  apply Forall_app in G. destruct G as [G1 G2]. apply Forall_cons_iff in G2. destruct G2 as [Go1 G2]. apply Forall_cons_iff in G2. destruct G2 as [Go2 G3].
  rewrite measure_app in HN. simpl in HN. rewrite app_length in Hf, Hk. simpl in Hf, Hk.
  intros H. apply obind_None in H. destruct H as [H|[n [Hn H]]]; [apply (Ht o1 o2) in H; auto; lia|].
  destruct n as [n|].
  2:{ revert H. apply IH; [exact G0|rewrite measure_app; simpl; lia|rewrite app_length; simpl; lia|rewrite app_length; simpl; lia]. }
  destruct (Hm _ _ _ Go1 Go2 Hn) as [o [-> [Go Mo]]]. rewrite del_at_split2, set_at_split in H.
  assert (Q : forall k', k' < length (l1 ++ o :: l2) \/ k' = 0 -> comp_loop rules fuel k' (l1 ++ o :: l2) <> None).
  { intros k' Hk'. rewrite app_length in Hk'. simpl in Hk'. apply IH.
    - apply Forall_app; split; [exact G1|constructor; auto].
    - rewrite measure_app. simpl. lia.
    - rewrite app_length. simpl. lia.
    - rewrite app_length. simpl. nia. }
  destruct (length l1 <? length (l1 ++ o :: l2) - 1) eqn:L; revert H; apply Q; rewrite app_length in *; simpl in *.
  + apply Nat.ltb_lt in L. lia.
  + lia.
Qed.
Lemma comp_rules_measure_term fuel ops : Forall good ops -> measure ops <= N -> (length ops + 1) * (length ops + 1) < fuel -> comp_rules rules fuel ops <> None.
Proof.
  intros G HN Hf. unfold comp_rules. destruct (Nat.leb_spec (length ops) 1); [discriminate|].
  apply comp_loop_measure_term; auto; [lia|]. nia.
Qed.
End Comp.

Section Comm.
Variable rules : op -> list (op -> op -> out (option op)).
Variables (is_homothety is_zero : op -> bool).
Hypothesis Hm : forall o1 o2 r o, good o1 -> good o2 -> In r (rules o1) -> r o1 o2 = ret (Some o) -> good o /\ m o <= m o1 + m o2.
Lemma comm_step i j oi oj ops o : Forall good ops -> nth_error ops i = Some oi -> j <> i -> nth_error ops j = Some oj ->
  (good oi -> good oj -> good o /\ m o <= m oi + m oj) ->
  let ops' := set_at (del_at ops j) (if j <? i then i - 1 else i) o in
  Forall good ops' /\ measure ops' <= measure ops /\ length ops' = length ops - 1 /\ nth_error ops' (if j <? i then i - 1 else i) = Some o.
Proof.
  intros G Ei N Ej H. assert (N' : i <> j) by auto. destruct (merge_perm ops i j oi oj o N' Ei Ej) as [rest [P1 [P2 [L E]]]].
  pose proof (good_perm good _ _ P1 G) as G1. apply Forall_cons_iff in G1. destruct G1 as [Gi G1]. apply Forall_cons_iff in G1. destruct G1 as [Gj G1].
  destruct (H Gi Gj) as [Go Mo]. split; [|split; [|split; [exact L|exact E]]].
  - eapply good_perm; [symmetry; exact P2|]. constructor; auto.
  - rewrite (measure_perm _ _ P2), (measure_perm _ _ P1). simpl. lia.
Qed.
Lemma comm_found i oi ops j o : Forall good ops -> nth_error ops i = Some oi -> find_merge rules i 0 oi ops = ret (Some (j, o)) ->
  j <> i /\ exists oj, nth_error ops j = Some oj /\ (good oi -> good oj -> good o /\ m o <= m oi + m oj).
Proof.
  intros G Ei H. apply (find_merge_sound rules (fun oi oj o => good oi -> good oj -> good o /\ m o <= m oi + m oj)) in H.
  - destruct H as [A [oj [B [_ C]]]]. split; [exact A|]. exists oj. rewrite Nat.sub_0_r in B. auto.
  - intros r Hr oj o' _ E Gi Gj. eapply Hm; eauto.
Qed.
Lemma comm_loop_measure fuel : forall i ops ops', Forall good ops -> comm_loop rules fuel i ops = ret ops' -> Forall good ops' /\ measure ops' <= measure ops.
Proof.
  induction fuel as [|fuel IH]; intros i ops ops' G; simpl; [discriminate|].
  destruct (nth_error ops i) as [oi|] eqn:Ei.
  2:{ intros H. apply ret_inj in H. subst. auto. }
  intros H. apply obind_ret in H. destruct H as [[[j o]|] [Hn H]]; [|apply IH in H; auto].
  destruct (comm_found _ _ _ _ _ G Ei Hn) as [N [oj [Ej Q]]]. destruct (comm_step i j oi oj ops o G Ei N Ej Q) as [A [B _]].
  apply IH in H; auto. destruct H as [C D]. split; [exact C|lia].
Qed.
Lemma comm_rules_measure fuel ops ops' : (forall o, good o -> is_homothety o = true -> is_zero o = false) ->
  Forall good ops -> comm_rules rules is_homothety is_zero fuel ops = ret ops' -> Forall good ops' /\ measure ops' <= measure ops.
Proof.
  intros Hz G. unfold comm_rules. destruct (length ops <=? 1).
  - intros H. apply ret_inj in H. subst. auto.
  - intros H. apply obind_ret in H. destruct H as [l [E H]]. apply ret_inj in H. subst. destruct (comm_loop_measure _ _ _ _ G E) as [A B].
    pose proof (move_homothety_perm good is_homothety is_zero Hz l A) as P. split; [eapply good_perm; eauto|]. rewrite <- (measure_perm _ _ P). exact B.
Qed.
Variable N : nat.
Hypothesis Ht : forall o1 o2 r, good o1 -> good o2 -> m o1 + m o2 <= N -> In r (rules o1) -> r o1 o2 <> None.
Lemma measure_two ops i j oi oj : i <> j -> nth_error ops i = Some oi -> nth_error ops j = Some oj -> m oi + m oj <= measure ops.
Proof. intros H Ei Ej. destruct (merge_perm ops i j oi oj oi H Ei Ej) as [rest [P _]]. rewrite (measure_perm _ _ P). simpl. lia. Qed.
Lemma find_merge_measure_term i oi ops : Forall good ops -> nth_error ops i = Some oi -> measure ops <= N ->
  forall l1 l2, ops = l1 ++ l2 -> find_merge rules i (length l1) oi l2 <> None.
Proof.
  intros G Ei HN l1 l2. revert l1. induction l2 as [|x l2 IH]; intros l1 E; simpl; [discriminate|].
  assert (Q : find_merge rules i (S (length l1)) oi l2 <> None).
  { replace (S (length l1)) with (length (l1 ++ [x])) by (rewrite app_length; simpl; lia). apply IH. rewrite <- app_assoc. exact E. }
  destruct (Nat.eqb_spec (length l1) i) as [Hi|Hi]; [exact Q|]. intros F. apply obind_None in F. destruct F as [F|[n [_ F]]].
  - revert F. apply first_rule1_term. intros r Hr. assert (Ej : nth_error ops (length l1) = Some x) by (rewrite E, nth_error_app2, Nat.sub_diag by lia; reflexivity).
    apply Ht; auto.
    + rewrite Forall_forall in G. apply G. eapply nth_error_In; eauto.
    + rewrite Forall_forall in G. apply G. eapply nth_error_In; eauto.
    + pose proof (measure_two ops i (length l1) oi x (not_eq_sym Hi) Ei Ej). lia.
  - destruct n; [discriminate|]. exact (Q F).
Qed.
Lemma comm_loop_measure_term fuel : forall i ops, Forall good ops -> measure ops <= N -> i <= length ops ->
  length ops * S (length ops) + (length ops - i) < fuel -> comm_loop rules fuel i ops <> None.
Proof.
  induction fuel as [|fuel IH]; intros i ops G HN Hi Hf; [lia|]. simpl.
  destruct (nth_error ops i) as [oi|] eqn:Ei; [|discriminate].
  assert (Li : i < length ops) by (apply nth_error_Some; congruence).
  intros H. apply obind_None in H. destruct H as [H|[n [Hn H]]]; [exact (find_merge_measure_term i oi ops G Ei HN [] ops eq_refl H)|].
  destruct n as [[j o]|].
  2:{ revert H. apply IH; auto; lia. }
  destruct (comm_found _ _ _ _ _ G Ei Hn) as [Nj [oj [Ej Q]]]. destruct (comm_step i j oi oj ops o G Ei Nj Ej Q) as [A [B [C D]]].
  assert (Lj : j < length ops) by (apply nth_error_Some; congruence).
  revert H. apply IH.
  - exact A.
  - lia.
  - apply Nat.lt_le_incl. apply nth_error_Some. congruence.
  - rewrite C. destruct (j <? i); nia.
Qed.
Lemma comm_rules_measure_term fuel ops : Forall good ops -> measure ops <= N -> (length ops + 1) * (length ops + 1) < fuel ->
  comm_rules rules is_homothety is_zero fuel ops <> None.
Proof.
  intros G HN Hf. unfold comm_rules. destruct (length ops <=? 1); [discriminate|]. intros E. apply obind_None in E.
  destruct E as [E|[n [_ E]]]; [|discriminate]. revert E. apply comm_loop_measure_term; auto; nia.
Qed.
End Comm.

Section Homo.
Context {K : cring} (keqb : K -> K -> bool) (linear is_identity : op -> bool) (scalar_of : op -> option K) (identity : op) (homothety : K -> op).
Variables (left right : op -> list (op -> op -> out (option op))).
Hypothesis Hk : keqb r1 r1 = true.
Hypothesis Hid : good identity /\ m identity = 0.
Hypothesis Hsc : forall o d, scalar_of o = Some d -> 1 <= m o.
Hypothesis Hh : forall d, good (homothety d) /\ m (homothety d) <= 1.
Hypothesis Hl : forall o r d o', good o -> In r (left o) -> r o (homothety d) = ret (Some o') -> good o' /\ m o' <= m o.
Hypothesis Hr : forall o r d o', good o -> In r (right o) -> r (homothety d) o = ret (Some o') -> good o' /\ m o' <= m o.
Lemma absorb_measure d ops : Forall good ops -> forall ops', absorb is_identity left right (homothety d) ops = ret (Some ops') ->
  Forall good ops' /\ measure ops' <= measure ops.
Proof.
  intros G. induction G as [|o ops Go G IH]; simpl; intros ops' E; [discriminate|].
  apply obind_ret in E. destruct E as [[o'|] [E1 E2]].
  - apply ret_inj in E2. injection E2 as <-. destruct (is_identity o); [discriminate|]. apply obind_ret in E1. destruct E1 as [n [E1 E3]].
    assert (Q : good o' /\ m o' <= m o).
    { destruct n as [o1|].
      - apply ret_inj in E3. injection E3 as ->. apply (first_rule1_sound (fun o h o' => good o' /\ m o' <= m o)) in E1; [exact E1|].
        intros r Hin o1 E. eapply Hl; eauto.
      - apply (first_rule1_sound (fun h o o' => good o' /\ m o' <= m o)) in E3; [exact E3|]. intros r Hin o1 E. eapply Hr; eauto. }
    destruct Q as [Q1 Q2]. split; [constructor; auto|]. simpl. lia.
  - apply obind_ret in E2. destruct E2 as [r [E2 E3]]. apply ret_inj in E3. destruct r as [r|]; [|discriminate]. injection E3 as <-.
    destruct (IH r E2) as [A B]. split; [constructor; auto|]. simpl. lia.
Qed.
Lemma group_rest_measure g : measure (group_rest scalar_of identity g) + scalars scalar_of g <= measure g.
Proof.
  unfold group_rest, scalars. induction g as [|o g IH]; simpl; [lia|]. destruct (scalar_of o) eqn:E; simpl; [|lia].
  pose proof (Hsc _ _ E). rewrite (proj2 Hid). lia.
Qed.
Lemma group_scalar_none g : scalars scalar_of g = 0 -> group_scalar scalar_of g = r1.
Proof.
  unfold group_scalar, scalars. generalize (r1 (c := K)). induction g as [|o g IH]; simpl; intros s H; [reflexivity|].
  destruct (scalar_of o); [discriminate|]. apply IH, H.
Qed.
Lemma group_rest_good' g : Forall good g -> Forall good (group_rest scalar_of identity g).
Proof.
  intros G. unfold group_rest. rewrite Forall_map. eapply Forall_impl; [|exact G]. intros o Go. simpl. destruct (scalar_of o); [apply Hid|exact Go].
Qed.
Lemma homothety_stage_measure ops ops' : Forall good ops ->
  homothety_stage keqb linear is_identity scalar_of identity homothety left right ops = ret ops' ->
  Forall good ops' /\ measure ops' <= measure ops.
Proof.
  intros G. unfold homothety_stage. assert (G' : Forall (fun g => Forall good (snd g)) (groupby linear ops)).
  { rewrite <- (groupby_concat linear ops) in G. apply Forall_concat in G. rewrite Forall_map in G. exact G. }
  rewrite <- (groupby_concat linear ops) at 2. revert ops'. induction G' as [|[b g] gs Gg Gs IH]; simpl; intros ops' E.
  - apply ret_inj in E. subst. auto.
  - apply obind_ret in E. destruct E as [g' [E1 E]]. apply obind_ret in E. destruct E as [r [E2 E]]. apply ret_inj in E. subst.
    destruct (IH r E2) as [A B]. simpl in Gg.
    assert (Q : Forall good g' /\ measure g' <= measure g).
    { destruct b; [|apply ret_inj in E1; subst; auto]. unfold homothety_group in E1. destruct (length g <=? 1); [apply ret_inj in E1; subst; auto|].
      pose proof (group_rest_measure g) as M. pose proof (group_rest_good' g Gg) as Gr.
      destruct (keqb (group_scalar scalar_of g) r1) eqn:Q; [apply ret_inj in E1; subst; split; [exact Gr|lia]|].
      assert (scalars scalar_of g <> 0) by (intros Z; rewrite (group_scalar_none g Z) in Q; congruence).
      apply obind_ret in E1. destruct E1 as [[r'|] [E3 E4]]; apply ret_inj in E4; subst.
      - destruct (absorb_measure _ _ Gr _ E3). split; [auto|lia].
      - destruct (Hh (group_scalar scalar_of g)) as [H1 H2]. split; [constructor; auto|]. simpl. lia. }
    destruct Q as [Q1 Q2]. split; [apply Forall_app; auto|]. rewrite !measure_app. lia.
Qed.
End Homo.
End Measure.
