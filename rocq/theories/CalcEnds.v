(** Every construction of a product, a sum or an element-wise product of core operators ends, block operators included.

    A rule on block operators builds the products of their blocks, and the block operators of blocks of blocks may disappear: the
    product of a block row and a block column is a sum of any size.  What decreases is the number of block operators of each
    depth, from the greatest depth to the smallest one, and then the measures of CalcProofs. *)
From Coq Require Import Permutation.
From Verif Require Import Base Algebra EngineModel EngineSpec EngineProofs RuleModel CalcModel CalcSpec CalcBlocks CalcProofs.

(** ** Evaluations that end, and give the same result with any greater number of steps *)
Section Ev.
Definition ends {A} (m : nat -> out A) : Prop := exists r N, forall n, N <= n -> m n = Some r.
Lemma ends_const {A} (r : result A) : ends (fun _ => Some r).
Proof. exists r, 0. reflexivity. Qed.
Lemma ends_bind {A B} (m : nat -> out A) (f : nat -> A -> out B) : ends m ->
  (forall a, (exists N, forall n, N <= n -> m n = ret a) -> ends (fun n => f n a)) -> ends (fun n => obind (m n) (f n)).
Proof.
  intros [r [N H]] F. destruct r as [a|e].
  - destruct (F a) as [r [N' H']]; [exists N; exact H|]. exists r, (Nat.max N N'). intros n Hn. rewrite H by lia. cbn [obind]. apply H'. lia.
  - exists (Raise e), N. intros n Hn. rewrite H by lia. reflexivity.
Qed.
Lemma ends_some {A} (m : nat -> out A) : ends m -> ends (fun n => some (m n)).
Proof. intros H. unfold some. apply ends_bind; [exact H|]. intros a _. apply ends_const. Qed.
Lemma ends_mapo {A B} (f : nat -> A -> out B) l : (forall a, In a l -> ends (fun n => f n a)) -> ends (fun n => mapo (f n) l).
Proof.
  induction l as [|a l IH]; cbn [mapo]; intros H; [apply ends_const|]. apply (ends_bind (fun n => f n a)); [apply H; left; reflexivity|]. intros b _.
  apply (ends_bind (fun n => mapo (f n) l)); [apply IH; intros x Hx; apply H; right; exact Hx|]. intros r _. apply ends_const.
Qed.
Lemma ends_S {A} (m : nat -> out A) : ends (fun n => m n) -> forall m', (forall n, m' (S n) = m n) -> ends m'.
Proof. intros [r [N H]] m' E. exists r, (S N). intros n Hn. destruct n as [|n]; [lia|]. rewrite E. apply H. lia. Qed.
End Ev.

(** ** The loops *)
Section Loops.
Context {op : Type}.
Lemma first_rule_ends {A} (f : nat -> A -> EngineModel.rule op) l o1 o2 : (forall a, In a l -> ends (fun n => f n a o1 o2)) ->
  ends (fun n => first_rule (map (f n) l) o1 o2).
Proof.
  induction l as [|a l IH]; cbn [map first_rule]; intros H; [apply ends_const|]. apply (ends_bind (fun n => f n a o1 o2)); [apply H; left; reflexivity|].
  intros [x|] _; [apply ends_const|]. apply IH. intros y Hy. apply H. right. exact Hy.
Qed.
Lemma first_rule1_ends {A} (f : nat -> A -> op -> op -> out (option op)) l o1 o2 : (forall a, In a l -> ends (fun n => f n a o1 o2)) ->
  ends (fun n => first_rule1 (map (f n) l) o1 o2).
Proof.
  induction l as [|a l IH]; cbn [map first_rule1]; intros H; [apply ends_const|]. apply (ends_bind (fun n => f n a o1 o2)); [apply H; left; reflexivity|].
  intros [x|] _; [apply ends_const|]. apply IH. intros y Hy. apply H. right. exact Hy.
Qed.

Section Comp.
Variable rules : nat -> op -> op -> list (EngineModel.rule op).
Variable Inv : list op -> Prop.
Hypothesis Hstep : forall n l1 o1 o2 l2 nw, Inv (l1 ++ o1 :: o2 :: l2) -> first_rule (rules n o1 o2) o1 o2 = ret (Some nw) ->
  exists o, nw = One o /\ Inv (l1 ++ o :: l2).
Lemma comp_loop_inv n fuel : forall k ops ops', Inv ops -> comp_loop (rules n) fuel k ops = ret ops' -> Inv ops'.
Proof.
  induction fuel as [|fuel IH]; intros k ops ops' G; cbn [comp_loop]; [discriminate|].
  destruct k as [|i]. { intros H. apply ret_inj in H. subst. exact G. }
  destruct (nth_error ops i) as [o1|] eqn:E1; [|discriminate]. destruct (nth_error ops (S i)) as [o2|] eqn:E2; [|discriminate].
  destruct (split_nth2 _ _ _ _ E1 E2) as [l1 [l2 [-> <-]]].
  intros H. apply obind_ret in H. destruct H as [nw [Hn H]]. destruct nw as [nw|]; [|apply IH in H; auto].
  destruct (Hstep _ _ _ _ _ _ G Hn) as [o [-> Go]]. rewrite del_at_split2, set_at_split in H.
  destruct (length l1 <? length (l1 ++ o :: l2) - 1); apply IH in H; auto.
Qed.
Lemma comp_rules_inv n fuel ops ops' : Inv ops -> comp_rules (rules n) fuel ops = ret ops' -> Inv ops'.
Proof.
  intros G. unfold comp_rules. destruct (length ops <=? 1).
  - intros H. apply ret_inj in H. subst. exact G.
  - apply comp_loop_inv. exact G.
Qed.
Hypothesis Hends : forall l1 o1 o2 l2, Inv (l1 ++ o1 :: o2 :: l2) -> ends (fun n => first_rule (rules n o1 o2) o1 o2).
Lemma comp_loop_ends fuel : forall k ops, Inv ops -> k < length ops \/ k = 0 -> length ops * S (length ops) + k < fuel ->
  ends (fun n => comp_loop (rules n) fuel k ops).
Proof.
  induction fuel as [|fuel IH]; intros k ops G Hk Hf; [lia|]. cbn [comp_loop].
  destruct k as [|i]; [apply ends_const|].
  destruct (nth_error ops i) as [o1|] eqn:E1; [|apply ends_const]. destruct (nth_error ops (S i)) as [o2|] eqn:E2; [|apply ends_const].
  destruct (split_nth2 _ _ _ _ E1 E2) as [l1 [l2 [-> <-]]]. rewrite app_length in Hf, Hk. simpl in Hf, Hk.
  apply (ends_bind (fun n => first_rule (rules n o1 o2) o1 o2)); [eapply Hends; eauto|]. intros nw [N HN].
  destruct nw as [nw|]; [|apply IH; [exact G|rewrite app_length; simpl; lia|rewrite app_length; simpl; lia]].
  destruct (Hstep N _ _ _ _ _ G (HN N (Nat.le_refl N))) as [o [-> Go]]. rewrite del_at_split2, set_at_split.
  assert (Q : forall k', k' < length (l1 ++ o :: l2) \/ k' = 0 -> ends (fun n => comp_loop (rules n) fuel k' (l1 ++ o :: l2))).
  { intros k' Hk'. rewrite app_length in Hk'. simpl in Hk'. apply IH; [exact Go| |]; rewrite app_length; simpl; [lia|nia]. }
  destruct (length l1 <? length (l1 ++ o :: l2) - 1) eqn:L; apply Q; rewrite app_length in *; simpl in *.
  + apply Nat.ltb_lt in L. lia.
  + lia.
Qed.
Lemma comp_rules_ends ops : Inv ops -> ends (fun n => comp_rules (rules n) (turns (length ops)) ops).
Proof.
  intros G. unfold comp_rules. destruct (Nat.leb_spec (length ops) 1); [apply ends_const|]. apply comp_loop_ends; [exact G|lia|]. unfold turns. nia.
Qed.
End Comp.

Section Comm.
Variable rules : nat -> op -> list (op -> op -> out (option op)).
Variables (is_homothety is_zero : op -> bool).
Variable Inv : list op -> Prop.
Hypothesis Hperm : forall l l', Permutation l l' -> Inv l -> Inv l'.
Hypothesis Hstep : forall n oi oj rest r o, Inv (oi :: oj :: rest) -> In r (rules n oi) -> r oi oj = ret (Some o) -> Inv (o :: rest).
Lemma comm_found_inv n i oi ops j o : Inv ops -> nth_error ops i = Some oi -> find_merge (rules n) i 0 oi ops = ret (Some (j, o)) ->
  let ops' := set_at (del_at ops j) (if j <? i then i - 1 else i) o in
  Inv ops' /\ length ops' = length ops - 1 /\ nth_error ops' (if j <? i then i - 1 else i) = Some o /\ j < length ops.
Proof.
  intros G Ei H. apply (find_merge_sound (rules n) (fun oi oj o => forall rest, Inv (oi :: oj :: rest) -> Inv (o :: rest))) in H.
  - destruct H as [N [oj [Ej [_ C]]]]. rewrite Nat.sub_0_r in Ej. destruct (merge_perm ops i j oi oj o (not_eq_sym N) Ei Ej) as [rest [P1 [P2 [L E]]]].
    split; [|split; [exact L|split; [exact E|apply nth_error_Some; congruence]]]. apply (Hperm _ _ (Permutation_sym P2)). apply C. exact (Hperm _ _ P1 G).
  - intros r Hr oj o' _ E rest G'. eapply Hstep; eauto.
Qed.
Lemma comm_loop_inv n fuel : forall i ops ops', Inv ops -> comm_loop (rules n) fuel i ops = ret ops' -> Inv ops'.
Proof.
  induction fuel as [|fuel IH]; intros i ops ops' G; simpl; [discriminate|].
  destruct (nth_error ops i) as [oi|] eqn:Ei.
  2:{ intros H. apply ret_inj in H. subst. exact G. }
  intros H. apply obind_ret in H. destruct H as [[[j o]|] [Hn H]]; [|apply IH in H; auto].
  destruct (comm_found_inv _ _ _ _ _ _ G Ei Hn) as [A _]. apply IH in H; auto.
Qed.
Hypothesis Hmove : forall l, Inv l -> Inv (move_homothety is_homothety is_zero l).
Lemma comm_rules_inv n fuel ops ops' : Inv ops -> comm_rules (rules n) is_homothety is_zero fuel ops = ret ops' -> Inv ops'.
Proof.
  intros G. unfold comm_rules. destruct (length ops <=? 1).
  - intros H. apply ret_inj in H. subst. exact G.
  - intros H. apply obind_ret in H. destruct H as [l [E H]]. apply ret_inj in H. subst. apply Hmove. eapply comm_loop_inv; eauto.
Qed.
Hypothesis Hends : forall oi oj rest, Inv (oi :: oj :: rest) -> ends (fun n => first_rule1 (rules n oi) oi oj).
Lemma find_merge_ends i oi ops : Inv ops -> nth_error ops i = Some oi -> forall l1 l2, ops = l1 ++ l2 -> ends (fun n => find_merge (rules n) i (length l1) oi l2).
Proof.
  intros G Ei l1 l2. revert l1. induction l2 as [|x l2 IH]; intros l1 E; cbn [find_merge]; [apply ends_const|].
  assert (Q : ends (fun n => find_merge (rules n) i (S (length l1)) oi l2)).
  { replace (S (length l1)) with (length (l1 ++ [x])) by (rewrite app_length; simpl; lia). apply IH. rewrite <- app_assoc. exact E. }
  destruct (Nat.eqb_spec (length l1) i) as [Hi|Hi]; [exact Q|].
  assert (Ej : nth_error ops (length l1) = Some x) by (rewrite E, nth_error_app2, Nat.sub_diag by lia; reflexivity).
  destruct (merge_perm ops i (length l1) oi x oi (not_eq_sym Hi) Ei Ej) as [rest [P _]].
  apply (ends_bind (fun n => first_rule1 (rules n oi) oi x)); [exact (Hends _ _ rest (Hperm _ _ P G))|]. intros [o|] _; [apply ends_const|exact Q].
Qed.
Lemma comm_loop_ends fuel : forall i ops, Inv ops -> i <= length ops -> length ops * S (length ops) + (length ops - i) < fuel ->
  ends (fun n => comm_loop (rules n) fuel i ops).
Proof.
  induction fuel as [|fuel IH]; intros i ops G Hi Hf; [lia|]. cbn [comm_loop].
  destruct (nth_error ops i) as [oi|] eqn:Ei; [|apply ends_const].
  assert (Li : i < length ops) by (apply nth_error_Some; congruence).
  apply (ends_bind (fun n => find_merge (rules n) i 0 oi ops)); [exact (find_merge_ends i oi ops G Ei [] ops eq_refl)|].
  intros [[j o]|] [N HN].
  2:{ apply IH; auto; lia. }
  destruct (comm_found_inv N _ _ _ _ _ G Ei (HN N (Nat.le_refl N))) as [A [L [E Lj]]]. apply IH.
  - exact A.
  - apply Nat.lt_le_incl. apply nth_error_Some. congruence.
  - rewrite L. destruct (j <? i); nia.
Qed.
Lemma comm_rules_ends ops : Inv ops -> ends (fun n => comm_rules (rules n) is_homothety is_zero (turns (length ops)) ops).
Proof.
  intros G. unfold comm_rules. destruct (length ops <=? 1); [apply ends_const|].
  apply (ends_bind (fun n => comm_loop (rules n) _ 0 ops)); [apply comm_loop_ends; [exact G|lia|unfold turns; nia]|]. intros l _. apply ends_const.
Qed.
End Comm.

Section Homo.
Context {K : cring} (keqb : K -> K -> bool) (linear is_identity : op -> bool) (scalar_of : op -> option K) (identity : op) (homothety : K -> op).
Variables (left right : nat -> op -> list (op -> op -> out (option op))).
Hypothesis Hl : forall o d, ends (fun n => first_rule1 (left n o) o (homothety d)).
Hypothesis Hr : forall o d, ends (fun n => first_rule1 (right n o) (homothety d) o).
Lemma absorb_ends d ops : ends (fun n => absorb is_identity (left n) (right n) (homothety d) ops).
Proof.
  induction ops as [|o ops IH]; cbn [absorb]; [apply ends_const|].
  apply (ends_bind (fun n => if is_identity o then _ else obind (first_rule1 (left n o) o (homothety d)) _)).
  - destruct (is_identity o); [apply ends_const|]. apply (ends_bind (fun n => first_rule1 (left n o) o (homothety d))); [apply Hl|].
    intros [x|] _; [apply ends_const|apply Hr].
  - intros [x|] _; [apply ends_const|]. apply (ends_bind (fun n => absorb _ (left n) (right n) _ ops)); [exact IH|]. intros r _. apply ends_const.
Qed.
Lemma homothety_stage_ends ops : ends (fun n => homothety_stage keqb linear is_identity scalar_of identity homothety (left n) (right n) ops).
Proof.
  unfold homothety_stage. induction (groupby linear ops) as [|[b g] gs IH]; cbn [homothety_groups]; [apply ends_const|].
  apply (ends_bind (fun n => if b then homothety_group keqb is_identity scalar_of identity homothety (left n) (right n) g else _)).
  - destruct b; [|apply ends_const]. unfold homothety_group. destruct (length g <=? 1); [apply ends_const|].
    destruct (keqb _ _); [apply ends_const|]. apply (ends_bind (fun n => absorb _ (left n) (right n) _ _)); [apply absorb_ends|]. intros [r|] _; apply ends_const.
  - intros g' _. apply (ends_bind (fun n => homothety_groups _ _ _ _ _ (left n) (right n) gs)); [exact IH|]. intros r _. apply ends_const.
Qed.
End Homo.
End Loops.

(** ** Numbers of block operators of each depth, compared from the greatest depth *)
Section Vectors.
Definition vlt (v w : nat -> nat) : Prop := exists j, v j < w j /\ forall i, j < i -> v i = w i.
Definition veq (v w : nat -> nat) : Prop := forall i, v i = w i.
Lemma vlt_ext v v' w w' : veq v' v -> veq w' w -> vlt v w -> vlt v' w'.
Proof. intros A B [j [H H']]. exists j. rewrite A, B. split; [exact H|]. intros i Hi. rewrite A, B. auto. Qed.
Lemma vlt_trans u v w : vlt u v -> vlt v w -> vlt u w.
Proof.
  intros [j [H1 H2]] [k [H3 H4]]. destruct (Nat.lt_trichotomy j k) as [L|[->|L]].
  - exists k. rewrite H2 by exact L. split; [exact H3|]. intros i Hi. rewrite H2 by lia. auto.
  - exists k. split; [lia|]. intros i Hi. rewrite H2 by lia. auto.
  - exists j. rewrite <- H4 by exact L. split; [exact H1|]. intros i Hi. rewrite H2 by lia. apply H4. lia.
Qed.
Lemma vlt_add u v w : vlt v w -> vlt (fun i => v i + u i) (fun i => w i + u i).
Proof. intros [j [H H']]. exists j. split; [lia|]. intros i Hi. rewrite H' by exact Hi. reflexivity. Qed.
Lemma vle_cases D v w : (forall i, v i <= w i) -> (forall i, D <= i -> w i = 0) -> vlt v w \/ veq v w.
Proof.
  revert v w. induction D as [|D IH]; intros v w L S.
  - right. intros i. pose proof (L i). rewrite S in * by lia. lia.
  - destruct (Nat.eq_dec (v D) (w D)) as [E|E].
    + destruct (IH (fun i => if i =? D then 0 else v i) (fun i => if i =? D then 0 else w i)) as [[j [H H']]|H].
      * intros i. simpl. destruct (i =? D); [lia|apply L].
      * intros i Hi. simpl. destruct (Nat.eqb_spec i D); [reflexivity|]. apply S. lia.
      * left. exists j. simpl in H, H'. destruct (Nat.eqb_spec j D) as [Ej|N]; [lia|]. split; [exact H|]. intros i Hi. specialize (H' i Hi).
        destruct (Nat.eqb_spec i D) as [Ei|N']; [rewrite Ei; exact E|exact H'].
      * right. intros i. specialize (H i). simpl in H. destruct (Nat.eqb_spec i D) as [Ei|N]; [rewrite Ei; exact E|exact H].
    + left. exists D. pose proof (L D). split; [lia|]. intros i Hi. pose proof (L i). rewrite S in * by lia. lia.
Qed.
Lemma vlt_support D v w : vlt v w -> (forall i, D <= i -> w i = 0) -> forall i, D <= i -> v i = 0.
Proof.
  intros [j [H H']] S i Hi. assert (j < D) by (destruct (Nat.lt_ge_cases j D) as [|L]; [assumption|]; rewrite (S j L) in H; lia).
  rewrite H' by lia. apply S, Hi.
Qed.
Lemma vlt_induction D : forall P : (nat -> nat) -> Prop,
  (forall v, (forall i, D <= i -> v i = 0) -> (forall w, vlt w v -> P w) -> P v) -> forall v, (forall i, D <= i -> v i = 0) -> P v.
Proof.
  induction D as [|D IH]; intros P H.
  - intros v S. apply H; [exact S|]. intros w [j [L _]]. rewrite S in L by lia. lia.
  - enough (Q : forall t v, (forall i, S D <= i -> v i = 0) -> v D <= t -> P v) by (intros v S; exact (Q (v D) v S (Nat.le_refl _))).
    induction t as [t IHt] using lt_wf_ind.
    enough (Q : forall u, (forall i, D <= i -> u i = 0) -> forall v, (forall i, S D <= i -> v i = 0) -> v D <= t -> (forall i, i < D -> v i = u i) -> P v).
    { intros v S L. apply (Q (fun i => if i <? D then v i else 0)); auto.
      - intros i Hi. simpl. destruct (Nat.ltb_spec i D); [lia|reflexivity].
      - intros i Hi. simpl. destruct (Nat.ltb_spec i D); [reflexivity|lia]. }
    apply (IH (fun u => forall v, (forall i, S D <= i -> v i = 0) -> v D <= t -> (forall i, i < D -> v i = u i) -> P v)).
    intros u Su IHu v S L E. apply H; [exact S|]. intros w Hw. pose proof (vlt_support _ _ _ Hw S) as Sw.
    destruct (Nat.lt_ge_cases (w D) (v D)) as [Lt|Ge]; [apply (IHt (w D)); auto; lia|].
    destruct Hw as [j [Hj Hj']].
    assert (Lj : j < D). { destruct (Nat.lt_trichotomy j D) as [|[->|Lj]]; [assumption|lia|]. rewrite (S j) in Hj by lia. lia. }
    apply (IHu (fun i => if i <? D then w i else 0)).
    + exists j. split.
      * destruct (Nat.ltb_spec j D); [|lia]. rewrite <- E by lia. exact Hj.
      * intros i Hi. destruct (Nat.ltb_spec i D) as [Li|Li]; [rewrite <- E by lia; auto|]. rewrite Su; auto.
    + exact Sw.
    + rewrite Hj' by lia. exact L.
    + intros i Hi. destruct (Nat.ltb_spec i D); [reflexivity|lia].
Qed.
End Vectors.

Section Calc.
Context {K : cring} {atom : Type} (env : oracles K atom).
Local Open Scope cr_scope.
Hypothesis keq : forall a b : K, k_eqb env a b = true <-> a = b.
Hypothesis nontrivial : (1 : K) <> 0.
Notation op := (op K atom).
Notation keqb := (k_eqb env).
Notation wf := (CalcSpec.wf true).
Add Ring Kring3 : (rth K).

(** ** The depth of the block operators *)
Fixpoint bdepth (o : op) : nat :=
  match o with
  | Comp l | Add l | Mul l => fold_right (fun o n => Nat.max (bdepth o) n) 0%nat l
  | Block _ _ l => S (fold_right (fun o n => Nat.max (bdepth o) n) 0%nat l)
  | _ => 0
  end.
(** The number of block operators of depth j among the operands, not counting those inside other block operators. *)
Fixpoint cnt (o : op) (j : nat) : nat :=
  match o with
  | Comp l | Add l | Mul l => fold_right (fun o n => cnt o j + n)%nat 0%nat l
  | Block _ _ _ => if (bdepth o =? j)%nat then 1 else 0
  | _ => 0
  end.
Definition vsum (l : list op) (j : nat) : nat := measure (fun o => cnt o j) l.
Definition light (M : nat) (o : op) : Prop := forall i, (M <= i)%nat -> cnt o i = 0%nat.
Lemma cnt_Comp l j : cnt (Comp l) j = vsum l j. Proof. reflexivity. Qed.
Lemma cnt_Add l j : cnt (Add l) j = vsum l j. Proof. reflexivity. Qed.
Lemma cnt_Mul l j : cnt (Mul l) j = vsum l j. Proof. reflexivity. Qed.
Lemma cnt_Block pi po l j : cnt (Block pi po l) j = if (bdepth (Block pi po l) =? j)%nat then 1%nat else 0%nat. Proof. reflexivity. Qed.
Lemma vsum_app l l' j : vsum (l ++ l') j = (vsum l j + vsum l' j)%nat. Proof. apply measure_app. Qed.
Lemma vsum_perm l l' : Permutation l l' -> veq (vsum l) (vsum l'). Proof. intros P j. apply measure_perm, P. Qed.
Lemma vsum_two o1 o2 j : vsum [o1; o2] j = (cnt o1 j + cnt o2 j)%nat. Proof. unfold vsum. simpl. lia. Qed.
Lemma vsum_light l M : (forall i, (M <= i)%nat -> vsum l i = 0%nat) <-> Forall (light M) l.
Proof.
  unfold vsum. induction l as [|o l IH]; simpl; [split; [constructor|reflexivity]|]. rewrite Forall_cons_iff, <- IH. split.
  - intros H. split; intros i Hi; specialize (H i Hi); lia.
  - intros [A B] i Hi. rewrite A, B by exact Hi. reflexivity.
Qed.
Lemma maxdepth (l : list op) o : In o l -> (bdepth o <= fold_right (fun o n => Nat.max (bdepth o) n) 0 l)%nat.
Proof. induction l as [|a l IH]; simpl; [tauto|]. intros [->|H]; [lia|]. apply IH in H. lia. Qed.
Lemma maxdepth_lt (l : list op) M : (1 <= M)%nat -> Forall (fun o => (bdepth o < M)%nat) l -> (fold_right (fun o n => Nat.max (bdepth o) n) 0 l < M)%nat.
Proof. intros H F. induction F; simpl; lia. Qed.
Lemma cnt_light o : light (S (bdepth o)) o.
Proof.
  assert (Q : forall l, Forall (fun o => light (S (bdepth o)) o) l -> forall i, (S (fold_right (fun o n => Nat.max (bdepth o) n) 0 l) <= i)%nat -> vsum l i = 0%nat).
  { intros l F i Hi. revert i Hi. apply vsum_light. rewrite Forall_forall in *. intros o' Ho i Hi. apply F; [exact Ho|]. pose proof (maxdepth l o' Ho). lia. }
  induction o using op_induction; intros i Hi; try reflexivity.
  - rewrite cnt_Comp. apply Q; assumption.
  - rewrite cnt_Add. apply Q; assumption.
  - rewrite cnt_Mul. apply Q; assumption.
  - rewrite cnt_Block. destruct (Nat.eqb_spec (bdepth (Block pi po l)) i); [lia|reflexivity].
Qed.
Lemma light_depth M o : (1 <= M)%nat -> light M o -> (bdepth o < M)%nat.
Proof.
  intros HM. assert (Q : forall l, Forall (fun o => light M o -> (bdepth o < M)%nat) l -> (forall i, (M <= i)%nat -> vsum l i = 0%nat) ->
    (fold_right (fun o n => Nat.max (bdepth o) n) 0 l < M)%nat).
  { intros l F H. apply vsum_light in H. apply maxdepth_lt; [exact HM|]. rewrite Forall_forall in *. auto. }
  induction o using op_induction; intros L; try (simpl; lia).
  - apply Q; [assumption|exact L].
  - apply Q; [assumption|exact L].
  - apply Q; [assumption|exact L].
  - destruct (Nat.lt_ge_cases (bdepth (Block pi po l)) M) as [|G]; [assumption|]. specialize (L _ G). rewrite cnt_Block, Nat.eqb_refl in L. discriminate.
Qed.
Lemma light_mono M M' o : (M <= M')%nat -> light M o -> light M' o.
Proof. intros H L i Hi. apply L. lia. Qed.
Definition flat (o : op) : Prop := forall j, cnt o j = 0%nat.
Lemma data_flat o a : data o = Some a -> flat o.
Proof. destruct o; try discriminate; intros _ j; reflexivity. Qed.
Lemma diag_flat a : flat (mkdiag env a).
Proof.
  intros j. assert (H : forall s, cnt (mkhomo env s) j = 0%nat) by (intros s; destruct (mkhomo_cases env s) as [->|[->| ->]]; reflexivity).
  destruct a as [s|d]; simpl; [apply H|]. destruct (forallb _ d); [reflexivity|]. destruct (forallb _ d); [reflexivity|].
  destruct (all_same env d); [apply H|]. destruct (forallb _ d); reflexivity.
Qed.
Lemma const_flat a o : mkconst env a = Ok o -> flat o.
Proof.
  destruct a as [s|[|b d]]; simpl; [|discriminate|].
  - intros [= <-] j. destruct (keqb s 0); reflexivity.
  - intros [= <-] j. destruct (forallb _ d); [destruct (keqb b 0)|]; reflexivity.
Qed.
Lemma mask_flat m : flat (mkmask m).
Proof. intros j. unfold mkmask. destruct (forallb _ m); [reflexivity|]. destruct (forallb _ m); reflexivity. Qed.
Lemma separable_flat o : separable env o = true -> flat o.
Proof.
  assert (Q : forall l, Forall (fun o => separable env o = true -> flat o) l -> forallb (separable env) l = true -> forall j, vsum l j = 0%nat).
  { intros l F E j. unfold vsum. induction F as [|o' l Ho F IH]; [reflexivity|]. simpl in E. apply andb_prop in E. destruct E as [E1 E2]. simpl.
    rewrite (Ho E1 j), (IH E2). reflexivity. }
  induction o using op_induction; intros E j; try reflexivity; try discriminate E; apply Q; assumption.
Qed.

(** ** Operators that the constructors give *)
Lemma keqb_0 s : keqb s 0 = false -> s <> 0.
Proof. intros H E. apply keq in E. congruence. Qed.
Lemma homo_wf s : wf (mkhomo env s : op).
Proof. unfold mkhomo. destruct (keqb s 0) eqn:E; [exact I|]. destruct (keqb s 1); [exact I|]. exact (keqb_0 s E). Qed.
Lemma diag_wf a : wf (mkdiag env a : op).
Proof.
  destruct a as [s|d]; simpl; [apply homo_wf|]. destruct (forallb _ d); [exact I|]. destruct (forallb _ d); [exact I|].
  destruct (all_same env d); [apply homo_wf|]. destruct (forallb _ d); exact I.
Qed.
Lemma mask_wf m : wf (mkmask m : op).
Proof. unfold mkmask. destruct (forallb _ m); [exact I|]. destruct (forallb _ m); exact I. Qed.
Lemma homo_zero (o : op) : wf o -> is_homo o = true -> is_zero_data env o = false.
Proof. destruct o; try discriminate; simpl; [reflexivity|]. intros H _. destruct (keqb s 0) eqn:E; [|reflexivity]. apply keq in E. contradiction. Qed.
Lemma sliced_flat o p s : wf o -> flat o -> mapo lift (sliced env o p) = ret s -> Forall (fun o => wf o /\ flat o) s.
Proof.
  intros W F E. apply lift_all in E. rewrite Forall_forall. intros x Hx. assert (H : In (Ok x) (sliced env o p)) by (rewrite E; apply in_map; exact Hx).
  assert (Q : In (Ok x) (map (fun _ : nat => Ok o) p) -> wf x /\ flat x) by (rewrite in_map_iff; intros [_ [[= <-] _]]; auto).
  destruct o as [a| |t| |c|d|m|n|l|l|l|pi po l]; cbn [sliced] in H; try exact (Q H).
  - destruct c as [t|v]; [exact (Q H)|]. apply in_map_iff in H. destruct H as [w [E' _]]. split; [eapply mkconst_wf; exact E'|eapply const_flat; exact E'].
  - apply in_map_iff in H. destruct H as [w [[= <-] _]]. split; [apply (diag_wf (V1 w))|apply (diag_flat (V1 w))].
  - apply in_map_iff in H. destruct H as [w [[= <-] _]]. split; [apply mask_wf|apply mask_flat].
Qed.

(** ** What a rule gives *)
Definition base (k : kind) (o1 o2 n : op) : Prop :=
  match k with
  | KComp => size n <= size o1 + size o2 /\ forall B, 5 <= B -> width o1 <= B -> width o2 <= B -> width n <= B
  | KAdd => terms n <= terms o1 + terms o2
  | KMul => bulk n <= bulk o1 + bulk o2
  end%nat.
Definition small (k : kind) (o1 o2 n : op) : Prop := wf n /\ (vlt (cnt n) (vsum [o1; o2]) \/ veq (cnt n) (vsum [o1; o2]) /\ base k o1 o2 n).
Definition Bound (k : kind) (ops : list op) (o : op) : Prop := vlt (cnt o) (vsum ops) \/ veq (cnt o) (vsum ops) /\ bound k ops o.
Lemma vsum_two_light o1 o2 M : light M o1 -> light M o2 -> forall i, (M <= i)%nat -> vsum [o1; o2] i = 0%nat.
Proof. intros A B i Hi. rewrite vsum_two, A, B by exact Hi. reflexivity. Qed.
Lemma two_support o1 o2 : forall i, (S (Nat.max (bdepth o1) (bdepth o2)) <= i)%nat -> vsum [o1; o2] i = 0%nat.
Proof. apply vsum_two_light; (eapply light_mono; [|apply cnt_light]; lia). Qed.
Lemma small_le k o1 o2 n : wf n -> (forall j, cnt n j <= cnt o1 j + cnt o2 j)%nat -> base k o1 o2 n -> small k o1 o2 n.
Proof.
  intros W H B. split; [exact W|]. destruct (vle_cases _ (cnt n) (vsum [o1; o2]) (fun j => eq_ind_r (fun x => cnt n j <= x)%nat (H j) (vsum_two o1 o2 j)) (two_support o1 o2)); auto.
Qed.
Lemma small_flat k o1 o2 n : wf n -> flat n -> base k o1 o2 n -> small k o1 o2 n.
Proof. intros W F. apply small_le; [exact W|]. intros j. rewrite F. lia. Qed.
Lemma small_bound k k' o1 o2 l n : wf n -> Bound k' l n -> veq (vsum l) (vsum [o1; o2]) -> (bound k' l n -> base k o1 o2 n) -> small k o1 o2 n.
Proof.
  intros W [H|[H B]] E F; (split; [exact W|]).
  - left. eapply vlt_ext; [| |exact H]; [intros i; reflexivity|]. intros i. symmetry. apply E.
  - right. split; [|auto]. intros i. rewrite H. apply E.
Qed.
Lemma Bound_light k l o M : Bound k l o -> Forall (light M) l -> light M o.
Proof.
  intros H F. pose proof (proj2 (vsum_light l M) F) as F'. destruct H as [H|[H _]]; intros i Hi.
  - exact (vlt_support _ _ _ H F' i Hi).
  - rewrite H. auto.
Qed.
(** A block operator, or what is left of it *)
Definition rest_of_block (D : nat) (n : op) : Prop := light D n \/ exists pi po l, n = Block pi po l /\ light (S D) n.
Lemma small_block k o1 o2 D n : wf n -> (1 <= D)%nat -> light (S D) o1 -> light (S D) o2 -> (1 <= cnt o1 D + cnt o2 D)%nat -> rest_of_block D n ->
  (forall pi po l, base k o1 o2 (Block pi po l)) -> small k o1 o2 n.
Proof.
  intros W HD L1 L2 H R B. split; [exact W|].
  assert (Q : light D n -> vlt (cnt n) (vsum [o1; o2])).
  { intros L. exists D. rewrite vsum_two, L by lia. split; [lia|]. intros i Hi. rewrite vsum_two, L, L1, L2 by lia. reflexivity. }
  destruct R as [R|[pi [po [l [-> R]]]]]; [auto|]. pose proof (light_depth (S D) _ ltac:(lia) R) as Dn.
  destruct (Nat.eq_dec (bdepth (Block pi po l)) D) as [E|N].
  - destruct (vle_cases (S D) (cnt (Block pi po l)) (vsum [o1; o2])); auto.
    + intros i. rewrite cnt_Block, vsum_two. destruct (Nat.eqb_spec (bdepth (Block pi po l)) i) as [E'|]; [|lia]. rewrite <- E', E. exact H.
    + apply vsum_two_light; assumption.
  - left. apply Q. eapply light_mono; [|apply cnt_light]. lia.
Qed.
Lemma Block_depth pi po l : (1 <= bdepth (Block pi po l : op))%nat /\ cnt (Block pi po l) (bdepth (Block pi po l)) = 1%nat /\ Forall (light (bdepth (Block pi po l))) l.
Proof.
  split; [simpl; lia|]. split; [rewrite cnt_Block, Nat.eqb_refl; reflexivity|]. rewrite Forall_forall. intros o Ho. eapply light_mono; [|apply cnt_light].
  simpl. pose proof (maxdepth l o Ho). lia.
Qed.
Section Bld.
Variable bld : kind -> list op -> out op.
Hypothesis Hb : forall k ops o, Forall wf ops -> bld k ops = ret o -> wf o /\ Bound k ops o.
Lemma pairs_light k l1 l2 D : Forall wf l1 -> Forall wf l2 -> Forall (light D) l1 -> Forall (light D) l2 ->
  forall l, mapo (fun p => bld k [fst p; snd p]) (combine l1 l2) = ret l -> Forall wf l /\ Forall (light D) l.
Proof.
  intros W1 W2 L1 L2 l E. apply mapo_ret in E. rewrite Forall_forall in W1, W2, L1, L2.
  assert (Q : forall p, In p (combine l1 l2) -> In (fst p) l1 /\ In (snd p) l2).
  { intros [a b] Hp. split; [eapply in_combine_l; exact Hp|eapply in_combine_r; exact Hp]. }
  revert Q E. generalize (combine l1 l2). intros c Q F. induction F as [|p o c l Hp F IH]; [auto|].
  destruct (Q p (or_introl eq_refl)) as [I1 I2]. destruct IH as [A B]; [intros q Hq; apply Q; right; exact Hq|].
  destruct (Hb k [fst p; snd p] o) as [W Bo]; [repeat constructor; auto|exact Hp|].
  split; constructor; auto. eapply Bound_light; [exact Bo|]. repeat constructor; auto.
Qed.
Lemma mkblock_rest pi po l n D : (1 <= D)%nat -> Forall wf l -> Forall (light D) l -> mkblock pi po l = ret n -> wf n /\ rest_of_block D n.
Proof.
  intros HD W L E. assert (Q : mkblock pi po l = ret (Block pi po l) -> wf n /\ rest_of_block D n).
  { intros Q. rewrite Q in E. apply ret_inj in E. subst n. split; [apply wf_Block; auto|]. right. exists pi, po, l. split; [reflexivity|].
    eapply light_mono; [|apply cnt_light]. simpl. apply le_n_S. apply maxdepth_lt; [exact HD|]. eapply Forall_impl; [|exact L]. intros o. apply light_depth. exact HD. }
  unfold mkblock in *. destruct l as [|a [|b l]].
  - destruct pi; [exact (Q eq_refl)|]. destruct po; [exact (Q eq_refl)|discriminate].
  - apply ret_inj in E. subst a. inversion W; subst. inversion L; subst. split; [assumption|left; assumption].
  - destruct pi; [exact (Q eq_refl)|]. destruct po; [exact (Q eq_refl)|discriminate].
Qed.
Lemma blockwise_rest k pi po l1 l2 n D : (1 <= D)%nat -> Forall wf l1 -> Forall wf l2 -> Forall (light D) l1 -> Forall (light D) l2 ->
  blockwise bld k pi po l1 l2 = ret (Some n) -> wf n /\ rest_of_block D n.
Proof.
  intros HD W1 W2 L1 L2 E. unfold blockwise in E. apply some_ret, obind_ret in E. destruct E as [l [E1 E2]].
  destruct (pairs_light k l1 l2 D W1 W2 L1 L2 l E1) as [W L]. eapply mkblock_rest; eauto.
Qed.

Lemma base_block_r k (o1 : op) pi po l pi' po' l' : base k o1 (Block pi po l) (Block pi' po' l').
Proof. destruct k; simpl; [split; [lia|auto]|lia|unfold bulk; simpl; lia]. Qed.
Lemma base_block_l k (o2 : op) pi po l pi' po' l' : base k (Block pi po l) o2 (Block pi' po' l').
Proof. destruct k; simpl; [split; [lia|auto]|lia|unfold bulk; simpl; lia]. Qed.
Lemma flat_light M o : flat o -> light M o.
Proof. intros F i _. apply F. Qed.
Lemma flats_light M s : Forall (fun o => wf o /\ flat o) s -> Forall wf s /\ Forall (light M) s.
Proof. intros F. split; (eapply Forall_impl; [|exact F]); intros o [? ?]; [assumption|apply flat_light; assumption]. Qed.
Lemma block_right_small k o1 pi po l s pi' po' n : flat o1 -> wf (Block pi po l) -> Forall (fun o => wf o /\ flat o) s ->
  blockwise bld k pi' po' s l = ret (Some n) -> small k o1 (Block pi po l) n.
Proof.
  intros F W Fs E. destruct (Block_depth pi po l) as [HD [HC HL]]. apply wf_Block in W. destruct (flats_light (bdepth (Block pi po l)) s Fs) as [Ws Ls].
  destruct (blockwise_rest k pi' po' s l n _ HD Ws (proj2 W) Ls HL E) as [Wn R].
  apply (small_block k _ _ (bdepth (Block pi po l))); auto using flat_light, cnt_light, base_block_r. rewrite HC. lia.
Qed.
Lemma block_left_small k o2 pi po l s pi' po' n : flat o2 -> wf (Block pi po l) -> Forall (fun o => wf o /\ flat o) s ->
  blockwise bld k pi' po' l s = ret (Some n) -> small k (Block pi po l) o2 n.
Proof.
  intros F W Fs E. destruct (Block_depth pi po l) as [HD [HC HL]]. apply wf_Block in W. destruct (flats_light (bdepth (Block pi po l)) s Fs) as [Ws Ls].
  destruct (blockwise_rest k pi' po' l s n _ HD (proj2 W) Ws HL Ls E) as [Wn R].
  apply (small_block k _ _ (bdepth (Block pi po l))); auto using flat_light, cnt_light, base_block_l. rewrite HC. lia.
Qed.
Lemma two_blocks pi po l pi' po' l' : exists D, (1 <= D)%nat /\ light (S D) (Block pi po l) /\ light (S D) (Block pi' po' l')
  /\ (1 <= cnt (Block pi po l) D + cnt (Block pi' po' l') D)%nat /\ Forall (light D) l /\ Forall (light D) l'.
Proof.
  destruct (Block_depth pi po l) as [HD [HC HL]]. destruct (Block_depth pi' po' l') as [HD' [HC' HL']].
  exists (Nat.max (bdepth (Block pi po l)) (bdepth (Block pi' po' l'))).
  assert (M : forall D D' l, (D <= D')%nat -> Forall (light D) l -> Forall (light D') l) by (intros D D' q H; apply Forall_impl; intros a; apply light_mono; exact H).
  repeat split; [lia|eapply light_mono; [|apply cnt_light]; lia|eapply light_mono; [|apply cnt_light]; lia| |eapply M; [|exact HL]; lia|eapply M; [|exact HL']; lia].
  destruct (Nat.max_spec (bdepth (Block pi po l)) (bdepth (Block pi' po' l'))) as [[_ ->]|[_ ->]]; lia.
Qed.
Lemma block_both_small k pi po l pi' po' l' pi'' po'' n : wf (Block pi po l) -> wf (Block pi' po' l') ->
  blockwise bld k pi'' po'' l l' = ret (Some n) -> small k (Block pi po l) (Block pi' po' l') n.
Proof.
  intros W W' E. destruct (two_blocks pi po l pi' po' l') as [D [HD [L1 [L2 [HC [HL HL']]]]]]. apply wf_Block in W. apply wf_Block in W'.
  destruct (blockwise_rest k pi'' po'' l l' n _ HD (proj2 W) (proj2 W') HL HL' E) as [Wn R].
  apply (small_block k _ _ D); auto using base_block_l.
Qed.
Lemma block_sum_small k pi po l pi' po' l' n : wf (Block pi po l) -> wf (Block pi' po' l') ->
  some (l'' <~ mapo (fun p => bld KComp [fst p; snd p]) (combine l l') ;; bld KAdd l'') = ret (Some n) -> small k (Block pi po l) (Block pi' po' l') n.
Proof.
  intros W W' E. destruct (two_blocks pi po l pi' po' l') as [D [HD [L1 [L2 [HC [HL HL']]]]]]. apply wf_Block in W. apply wf_Block in W'.
  apply some_ret, obind_ret in E. destruct E as [l'' [E1 E2]]. destruct (pairs_light KComp l l' D (proj2 W) (proj2 W') HL HL' l'' E1) as [W'' L''].
  destruct (Hb _ _ _ W'' E2) as [Wn Bn]. apply (small_block k _ _ D); auto using base_block_l. left. eapply Bound_light; eauto.
Qed.
Lemma repeat_flat o n : wf o -> flat o -> Forall (fun o => wf o /\ flat o) (repeat o n).
Proof. intros W F. rewrite Forall_forall. intros x Hx. apply repeat_spec in Hx. subst. auto. Qed.

Definition block_rule_of (o : op) (r : rule cls rname) : Prop :=
  match predicate r with
  | RBlockL | RBlockAdd | RBlockMul => (exists a, data o = Some a) /\ reference cls_eqb r = false
  | RBlockR => (exists a, data o = Some a) /\ reference cls_eqb r = true
  | _ => True
  end.
Lemma calls_block o k r : In (Set_ k r) (calls env o) -> block_rule_of o r.
Proof.
  intros H. unfold calls in H. apply in_app_iff in H. destruct H as [H|H].
  { unfold flag_calls in H. rewrite !in_app_iff in H.
    destruct H as [[H|[]]|[H|[H|[H|H]]]]; [injection H as <- <-; exact I| | | |];
      match type of H with In _ (if ?b then _ else _) => destruct b; [destruct H as [H|[]]; injection H as <- <-; exact I|destruct H] end. }
  destruct o as [a| |s| |c|d|m|p|l|l|l|pi po l].
  1:{ destruct (a_absorb env a); [|destruct H]. destruct H as [H|[]]. injection H as <- <-. exact I. }
  all: unfold broadcasting_calls, diag_calls, const_calls in H; simpl in H;
    repeat (destruct H as [H|H]; [first [discriminate H|injection H as <- <-]; unfold block_rule_of; cbn [predicate]; solve [exact I|split; [eexists; reflexivity|reflexivity]]|]); destruct H.
Qed.

Notation run := (run_rule env bld).
Ltac flat_base := unfold base; split; [simpl; lia|intros; simpl; lia].
Lemma comp_small_run o r o1 o2 n : In (Set_ Composition r) (calls env o) -> (if reference cls_eqb r then o2 = o else True) -> (if reference cls_eqb r then True else o1 = o) ->
  wf o1 -> wf o2 -> run r o1 o2 = ret (Some n) -> small KComp o1 o2 n.
Proof.
  intros Hc R2 R1 W1 W2. pose proof (proj1 (calls_where _ _ _ _ Hc)) as Hw. pose proof (calls_block _ _ _ Hc) as Hk.
  unfold run_rule. destruct (match other _ _ with Str _ => _ | Cls _ => _ end); [|discriminate].
  unfold where_rule in Hw. unfold block_rule_of in Hk. destruct (predicate r) eqn:P; cbn [predicate_of]; try discriminate; try (destruct Hw; discriminate); intros E.
  - (* RDot *) apply ret_inj in E. injection E as <-. destruct (reference cls_eqb r); (apply small_le; [assumption|intros; lia|unfold base; split; [lia|auto]]).
  - (* ROne *) apply ret_inj in E. injection E as <-. apply small_flat; [exact I|intros j; reflexivity|flat_base].
  - (* RBlockL *) destruct Hk as [[a A] R]. rewrite R in R1. subst o1. destruct o2 as [| | | | | | | | | | |pi [po|] l]; try discriminate. destruct (may_slide env o); [|discriminate].
    apply obind_ret in E. destruct E as [s [E1 E2]]. pose proof (data_flat _ _ A) as F. apply (block_right_small _ _ _ _ _ s _ _ _ F W2 (sliced_flat _ _ _ W1 F E1) E2).
  - (* RBlockR *) destruct Hk as [[a A] R]. rewrite R in R2. subst o2. destruct o1 as [| | | | | | | | | | |[pi|] po l]; try discriminate. destruct (may_slide env o); [|discriminate].
    apply obind_ret in E. destruct E as [s [E1 E2]]. pose proof (data_flat _ _ A) as F. apply (block_left_small _ _ _ _ _ s _ _ _ F W1 (sliced_flat _ _ _ W2 F E1) E2).
  - (* RCompDiag *) apply broadcast_ret in E. destruct E as [a [b [c [A [B [E [= <-]]]]]]]. apply small_flat; [apply diag_wf|apply diag_flat|].
    destruct (mkdiag_small env c) as [S1 [S2 _]]. unfold base. split; [|intros; lia].
    destruct (data_size _ _ A) as [->|?]; [|lia]. destruct (data_size _ _ B) as [->|?]; [|lia]. injection A as <-. injection B as <-. injection E as <-.
    cbn [mkdiag]. replace (1 * 1 : K) with (1 : K) by ring. unfold mkhomo. destruct (keqb 1 0) eqn:Z; [apply keq in Z; contradiction|]. rewrite (proj2 (keq 1 1) eq_refl). simpl. lia.
  - (* RIdL *) apply ret_inj in E. injection E as <-. apply small_le; [assumption|intros; lia|unfold base; split; [lia|auto]].
  - (* RIdR *) apply ret_inj in E. injection E as <-. apply small_le; [assumption|intros; lia|unfold base; split; [lia|auto]].
  - (* RConstL *) apply ret_inj in E. injection E as <-. apply small_le; [assumption|intros; lia|unfold base; split; [lia|auto]].
  - (* RConstR *) destruct (is_unconstrained env o1); [discriminate|]. destruct o2 as [| | | |c| | | | | | |]; try discriminate.
    assert (Q : exists y, mkconst env y = Ok n).
    { destruct c as [s|v]; [destruct (explicit_shapein env o1); [|discriminate]|]; apply some_ret, obind_ret in E; destruct E as [y [_ E]]; apply lift_ret in E; eauto. }
    destruct Q as [y Q]. apply small_flat; [eapply mkconst_wf; eauto|eapply const_flat; eauto|]. destruct (mkconst_small _ _ _ Q) as [S1 [S2 _]]. flat_base.
  - (* RZeroL *) destruct Hw as [_ [-> Hr]]. rewrite Hr in R1. subst. apply ret_inj in E. injection E as <-. apply small_flat; [exact I|intros j; reflexivity|flat_base].
  - (* RZeroR *) destruct Hw as [_ [-> Hr]]. rewrite Hr in R2. subst. destruct (linear env o1).
    { apply ret_inj in E. injection E as <-. apply small_flat; [exact I|intros j; reflexivity|flat_base]. }
    destruct (is_unconstrained env o1); [discriminate|]. destruct (explicit_shapein env o1); [|discriminate]. apply some_ret, obind_ret in E. destruct E as [y [_ E]]. apply lift_ret in E.
    apply small_flat; [eapply mkconst_wf; eauto|eapply const_flat; eauto|]. destruct (mkconst_small _ _ _ E) as [S1 [S2 _]]. flat_base.
  - (* RPowComp *) destruct o1 as [| | | | | | |p| | | |]; try discriminate. destruct o2 as [| | | | | | |q| | | |]; try discriminate. apply ret_inj in E. injection E as <-.
    simpl in W1, W2. rewrite mkpower_eq by nia. apply small_flat; [simpl; nia|intros j; reflexivity|flat_base].
  - (* RCompComp *) destruct o1 as [| | | | | | | |l1| | |]; try discriminate. destruct o2 as [| | | | | | | |l2| | |]; try discriminate.
    apply some_ret in E. apply wf_Comp in W1. apply wf_Comp in W2. apply Hb in E; [|apply Forall_app; auto]. destruct E as [A B]. apply (small_bound _ _ _ _ _ _ A B).
    + intros j. rewrite vsum_app, vsum_two, !cnt_Comp. reflexivity.
    + intros [S D]. rewrite measure_app in S. unfold base. rewrite !size_Comp. split; [lia|]. intros M HM H1 H2. apply (width_max _ _ HM) in H1. apply (width_max _ _ HM) in H2. apply D; [auto|apply Forall_app; auto].
  - (* RCompOp *) destruct o1 as [| | | | | | | |l1| | |]; try discriminate.
    apply some_ret in E. apply wf_Comp in W1. apply Hb in E; [|apply Forall_app; auto]. destruct E as [A B]. apply (small_bound _ _ _ _ _ _ A B).
    + intros j. rewrite vsum_app, vsum_two, !cnt_Comp. unfold vsum at 2. simpl. lia.
    + intros [S D]. rewrite measure_app in S. simpl in S. unfold base. rewrite !size_Comp. split; [lia|]. intros M HM H1 H2. apply (width_max _ _ HM) in H1. apply D; [auto|apply Forall_app; auto].
  - (* ROpComp *) destruct o2 as [| | | | | | | |l2| | |]; try discriminate.
    apply some_ret in E. apply wf_Comp in W2. apply Hb in E; [|constructor; auto]. destruct E as [A B]. apply (small_bound _ _ _ _ _ _ A B).
    + intros j. rewrite vsum_two, !cnt_Comp. reflexivity.
    + intros [S D]. simpl in S. unfold base. rewrite !size_Comp. split; [lia|]. intros M HM H1 H2. apply (width_max _ _ HM) in H2. apply D; [auto|constructor; auto].
  - (* RAbsorb *) destruct o1 as [a| | | | | | | | | | |]; try discriminate. destruct (data o2) as [[d|]|]; try discriminate. destruct (a_absorb env a); [|discriminate].
    apply ret_inj in E. injection E as <-. apply small_flat; [exact I|intros j; reflexivity|flat_base].
  - (* RSepL *) destruct o2 as [| | | | | | | | | | |pi [po|] l]; try discriminate. destruct (negb (is_block o1)); [|discriminate]. destruct (separable env o1) eqn:S; [|discriminate].
    apply separable_flat in S. exact (block_right_small _ _ _ _ _ _ _ _ _ S W2 (repeat_flat _ _ W1 S) E).
  - (* RSepR *) destruct o1 as [| | | | | | | | | | |[pi|] po l]; try discriminate. destruct (separable env o2) eqn:S; [|discriminate].
    apply separable_flat in S. exact (block_left_small _ _ _ _ _ _ _ _ _ S W1 (repeat_flat _ _ W2 S) E).
  - (* RBlockComp *) destruct o1 as [| | | | | | | | | | |[p|] po l]; try discriminate. destruct o2 as [| | | | | | | | | | |pi [q|] l']; try discriminate.
    destruct (list_eqb Nat.eqb p q); [|discriminate]. destruct pi as [pi|]; [exact (block_both_small _ _ _ _ _ _ _ _ _ _ W1 W2 E)|].
    destruct po as [po|]; [exact (block_both_small _ _ _ _ _ _ _ _ _ _ W1 W2 E)|exact (block_sum_small _ _ _ _ _ _ _ _ W1 W2 E)].
Qed.
Lemma comm_block_small k o r o2 n : block_rule_of o r -> predicate r = (match k with KAdd => RBlockAdd | _ => RBlockMul end) -> wf o -> wf o2 -> rule_block_add env bld k o o2 = ret (Some n) -> small k o o2 n.
Proof.
  intros Hk P W1 W2 E. assert (A : exists a, data o = Some a) by (unfold block_rule_of in Hk; rewrite P in Hk; destruct k; apply Hk). destruct A as [a A].
  unfold rule_block_add in E. destruct o2 as [| | | | | | | | | | |pi [po|] l]; try discriminate. destruct (may_add env o pi (Some po)); [|discriminate].
  apply obind_ret in E. destruct E as [s [E1 E2]]. pose proof (data_flat _ _ A) as F. exact (block_right_small _ _ _ _ _ s _ _ _ F W2 (sliced_flat _ _ _ W1 F E1) E2).
Qed.
Lemma comm_sep_small k o o2 n : wf o -> wf o2 -> rule_sep env bld k o o2 = ret (Some n) -> small k o o2 n.
Proof.
  intros W1 W2 E. unfold rule_sep in E. destruct o as [| | | | | | | | | | |pi po l]; try discriminate. destruct (separable env o2) eqn:S; [|discriminate]. cbn [andb] in E.
  destruct (negb (blocks_fixed env) || partition_eqb pi po)%bool; [|discriminate].
  apply separable_flat in S. exact (block_left_small _ _ _ _ _ _ _ _ _ S W1 (repeat_flat _ _ W2 S) E).
Qed.
Lemma comm_same_small k o o2 n : wf o -> wf o2 -> rule_same env bld k o o2 = ret (Some n) -> small k o o2 n.
Proof.
  intros W1 W2 E. unfold rule_same in E. destruct o as [| | | | | | | | | | |pi po l]; try discriminate. destruct o2 as [| | | | | | | | | | |pi' po' l']; try discriminate.
  match type of E with (if ?b then _ else _) = _ => destruct b; [|discriminate] end. exact (block_both_small _ _ _ _ _ _ _ _ _ _ W1 W2 E).
Qed.
Lemma add_small_run o r o2 n : In (Set_ Addition r) (calls env o) -> wf o -> wf o2 -> run r o o2 = ret (Some n) -> small KAdd o o2 n.
Proof.
  intros Hc W1 W2. destruct (calls_where _ _ _ _ Hc) as [Hw R]. specialize (R ltac:(discriminate)). pose proof (calls_block _ _ _ Hc) as Hk.
  unfold run_rule. rewrite R. destruct (match other _ _ with Str _ => _ | Cls _ => _ end); [|discriminate].
  assert (T1 : forall o : op, (1 <= terms o)%nat) by (intros []; simpl; lia). pose proof (T1 o). pose proof (T1 o2).
  unfold where_rule in Hw. destruct (predicate r) eqn:P; cbn [predicate_of]; try discriminate; try (destruct Hw; discriminate); intros E.
  - (* RBlockAdd *) exact (comm_block_small KAdd _ _ _ _ Hk P W1 W2 E).
  - (* RAddDiag *) apply broadcast_ret in E. destruct E as [a [b [c [A [B [E [= <-]]]]]]]. apply small_flat; [apply diag_wf|apply diag_flat|]. destruct (mkdiag_small env c) as [_ [_ S]]. unfold base. lia.
  - (* RAddConst *) apply broadcast_ret in E. destruct E as [a [b [c [A [B [E M]]]]]]. apply small_flat; [eapply mkconst_wf; eauto|eapply const_flat; eauto|]. destruct (mkconst_small _ _ _ M) as [_ [_ S]]. unfold base. lia.
  - (* RZeroAdd *) apply ret_inj in E. injection E as <-. apply small_le; [assumption|intros; lia|unfold base; lia].
  - (* RCommOp *) destruct Hw as [l ->]. apply wf_Add in W1. apply some_ret in E. apply Hb in E; [|apply Forall_app; auto]. destruct E as [A B]. apply (small_bound _ _ _ _ _ _ A B).
    + intros j. rewrite vsum_app, vsum_two, cnt_Add. unfold vsum at 2. simpl. lia.
    + unfold bound, base. rewrite measure_app, terms_Add. simpl. lia.
  - (* RCommComm *) destruct Hw as [l ->]. apply wf_Add in W1. destruct o2 as [| | | | | | | | |l2| |]; try discriminate. apply wf_Add in W2. apply some_ret in E.
    apply Hb in E; [|apply Forall_app; auto]. destruct E as [A B]. apply (small_bound _ _ _ _ _ _ A B).
    + intros j. rewrite vsum_app, vsum_two, !cnt_Add. reflexivity.
    + unfold bound, base. rewrite measure_app, !terms_Add. simpl. lia.
  - (* RSepAdd *) exact (comm_sep_small _ _ _ _ W1 W2 E).
  - (* RSameAdd *) exact (comm_same_small _ _ _ _ W1 W2 E).
Qed.
Lemma const_one o : mkconst env (S0 1) = Ok o -> bulk o = 3%nat.
Proof. simpl. intros [= <-]. destruct (keqb 1 0) eqn:E; [apply keq in E; contradiction|reflexivity]. Qed.
Lemma vsum_flat o1 o2 o3 o4 : flat o1 -> flat o2 -> flat o3 -> flat o4 -> veq (vsum [o1; o2]) (vsum [o3; o4]).
Proof. intros A B C D j. rewrite !vsum_two, A, B, C, D. reflexivity. Qed.
Lemma power_flat n : flat (mkpower n). Proof. intros j. destruct n as [|[|n]]; reflexivity. Qed.
Lemma const_mul_build (o o2 n : op) : (match o2, data o with
      | Comp _, Some a => some (bld KComp [mkdiag env a; o2])
      | _, Some a => if linear env o2 then some (bld KComp [mkdiag env a; o2]) else ret None
      | _, None => fail AttributeError
      end) = ret (Some n) -> (4 <= width o2)%nat /\ exists a, data o = Some a /\ bld KComp [mkdiag env a; o2] = ret n.
Proof.
  intros E. destruct (data o) as [a|] eqn:A; [|destruct o2; discriminate E]. destruct (linear env o2) eqn:L.
  - split; [eapply linear_width, L|]. exists a. split; [reflexivity|]. destruct o2; apply some_ret; exact E.
  - destruct o2 as [| | | | | | | |l| | |]; try discriminate E. split; [pose proof (Comp_width l); lia|]. exists a. split; [reflexivity|]. apply some_ret, E.
Qed.
Lemma mul_small_run o r o2 n : In (Set_ Multiplication r) (calls env o) -> wf o -> wf o2 -> run r o o2 = ret (Some n) -> small KMul o o2 n.
Proof.
  intros Hc W1 W2. destruct (calls_where _ _ _ _ Hc) as [Hw R]. specialize (R ltac:(discriminate)). pose proof (calls_block _ _ _ Hc) as Hk.
  unfold run_rule. rewrite R. destruct (match other _ _ with Str _ => _ | Cls _ => _ end) eqn:Ap; [|discriminate].
  unfold where_rule in Hw. destruct (predicate r) eqn:P; cbn [predicate_of]; try discriminate; try (destruct Hw; discriminate); intros E.
  - (* RBlockMul *) exact (comm_block_small KMul _ _ _ _ Hk P W1 W2 E).
  - (* RMulDiagConst *) apply broadcast_ret in E. destruct E as [a [b [c [A [B [E [= <-]]]]]]]. apply small_flat; [apply diag_wf|apply diag_flat|]. destruct (mkdiag_small env c) as [S1 [S2 _]].
    apply data_bulk in A. apply data_bulk in B. unfold base, bulk in *. lia.
  - (* RMulDiag *) destruct Hw as [_ [D Hs]]. unfold other in Ap. rewrite R, Hs in Ap. cbn [snd] in Ap. rewrite isinstance_sub in Ap by discriminate.
    destruct (data o) as [a|] eqn:A; [|discriminate]. destruct (data o2) as [b|] eqn:B; [|discriminate].
    apply some_ret in E. apply obind_ret in E. destruct E as [c [E1 E]]. apply lift_ret in E1. apply obind_ret in E. destruct E as [oc [E2 E]]. apply lift_ret in E2.
    apply Hb in E; [|repeat constructor; eapply mkconst_wf; eauto]. destruct E as [E3 E4]. apply (small_bound _ _ _ _ _ _ E3 E4).
    + apply vsum_flat; [eapply const_flat; eauto|apply power_flat|eapply data_flat; eauto|eapply data_flat; eauto].
    + intros Q. apply mkconst_bulk in E2. apply diag_bulk in D. apply diag_bulk in Ap. unfold base, bound, bulk in *. simpl in Q. lia.
  - (* RConstMul *) apply const_mul_build in E. destruct E as [L [a [A E]]]. apply Hb in E; [|repeat constructor; [apply diag_wf|assumption]]. destruct E as [E3 E4].
    apply (small_bound _ _ _ _ _ _ E3 E4).
    + intros j. rewrite !vsum_two, diag_flat, (data_flat _ _ A j). reflexivity.
    + intros [Q1 Q2]. destruct (mkdiag_small env a) as [S1 [S2 _]]. simpl in Q1. apply data_bulk in A. specialize (Q2 (Nat.max 5 (width o2)) ltac:(lia)).
      assert (Q : (width n <= Nat.max 5 (width o2))%nat) by (apply Q2; repeat constructor; lia). unfold base, bulk in *. lia.
  - (* RMulConst *) apply broadcast_ret in E. destruct E as [a [b [c [A [B [E M]]]]]]. apply small_flat; [eapply mkconst_wf; eauto|eapply const_flat; eauto|]. apply mkconst_bulk in M.
    apply data_bulk in A. apply data_bulk in B. unfold base. lia.
  - (* RZeroMul *) destruct Hw as [_ ->]. apply ret_inj in E. injection E as <-. apply small_flat; [exact I|intros j; reflexivity|]. unfold base, bulk. simpl. lia.
  - (* RPowMul *) destruct o as [| | | | | | |p| | | |]; try discriminate. destruct o2 as [| | | | | | |q| | | |]; try discriminate. apply ret_inj in E. injection E as <-.
    simpl in W1, W2. rewrite mkpower_eq by lia. apply small_flat; [simpl; lia|intros j; reflexivity|]. unfold base, bulk. simpl. lia.
  - (* RPowDiag *) destruct Hw as [_ Hs]. unfold other in Ap. rewrite R, Hs in Ap. cbn [snd] in Ap. rewrite isinstance_sub in Ap by discriminate.
    destruct o as [| | | | | | |p| | | |]; try discriminate. destruct (data o2) as [a|] eqn:A; [|discriminate].
    apply some_ret in E. apply obind_ret in E. destruct E as [oc [E2 E]]. apply lift_ret in E2.
    simpl in W1. rewrite mkpower_eq in E by lia. apply Hb in E; [|constructor; [eapply mkconst_wf; eauto|constructor; [simpl; lia|constructor]]]. destruct E as [E3 E4].
    apply (small_bound _ _ _ _ _ _ E3 E4).
    + apply vsum_flat; [eapply const_flat; eauto|intros j; reflexivity|intros j; reflexivity|eapply data_flat; eauto].
    + intros Q. destruct (diag_bulk _ Ap) as [_ [->|D]].
      * injection A as <-. apply const_one in E2. unfold base, bound, bulk in *. simpl in *. lia.
      * apply mkconst_bulk in E2. unfold base, bound, bulk in *. simpl in *. lia.
  - (* RCommOp *) destruct Hw as [l ->]. apply wf_Mul in W1. apply some_ret in E. apply Hb in E; [|apply Forall_app; auto]. destruct E as [A B]. apply (small_bound _ _ _ _ _ _ A B).
    + intros j. rewrite vsum_app, vsum_two, cnt_Mul. unfold vsum at 2. simpl. lia.
    + unfold bound, base. rewrite measure_app, bulk_Mul. simpl. lia.
  - (* RCommComm *) destruct Hw as [l ->]. apply wf_Mul in W1. destruct o2 as [| | | | | | | | | |l2 |]; try discriminate. apply wf_Mul in W2. apply some_ret in E.
    apply Hb in E; [|apply Forall_app; auto]. destruct E as [A B]. apply (small_bound _ _ _ _ _ _ A B).
    + intros j. rewrite vsum_app, vsum_two, !cnt_Mul. reflexivity.
    + unfold bound, base. rewrite measure_app, !bulk_Mul. simpl. lia.
  - (* RSepMul *) exact (comm_sep_small _ _ _ _ W1 W2 E).
  - (* RSameMul *) exact (comm_same_small _ _ _ _ W1 W2 E).
Qed.
End Bld.

(** ** The operands during the loops *)
Lemma pair_calls (o1 o2 : op) r : In r (rules_for_pair cls_eqb mro (mro (class_of o1)) (mro (class_of o2)) (op_rules env o1) (op_rules env o2)) ->
  exists o, In (Set_ Composition r) (calls env o) /\ (if reference cls_eqb r then o2 = o else True) /\ (if reference cls_eqb r then True else o1 = o).
Proof.
  intros H. unfold rules_for_pair in H. apply sort_In, in_app_iff in H. destruct H as [H|H].
  - destruct (op_rules_from env o1) as [_ [_ [A _]]]. destruct (A r H) as [Hc R]. exists o1. rewrite R. auto.
  - destruct (op_rules_from env o2) as [_ [_ [_ A]]]. destruct (A r H) as [Hc R]. exists o2. rewrite R. auto.
Qed.
Lemma add_calls (o : op) r : In r (add_rules (op_rules env o)) -> In (Set_ Addition r) (calls env o).
Proof.
  intros H. destruct (op_rules_from env o) as [A _]. destruct (A r H) as [r' [Hc Q]]. destruct (calls_where _ _ _ _ Hc) as [_ R]. rewrite R in Q by discriminate. subst. exact Hc.
Qed.
Lemma mul_calls (o : op) r : In r (mul_rules (op_rules env o)) -> In (Set_ Multiplication r) (calls env o).
Proof.
  intros H. destruct (op_rules_from env o) as [_ [A _]]. destruct (A r H) as [r' [Hc Q]]. destruct (calls_where _ _ _ _ Hc) as [_ R]. rewrite R in Q by discriminate. subst. exact Hc.
Qed.
Definition comm_rules_of (k : kind) (bld : kind -> list op -> out op) : op -> list (op -> op -> out (option op)) :=
  match k with KAdd => add_rules_of env bld | _ => mul_rules_of env bld end.

Section Invariant.
Variables (k : kind) (V : nat -> nat) (N B : nat).
Hypothesis HB : (5 <= B)%nat.
Definition inv (l : list op) : Prop :=
  Forall wf l /\ (vlt (vsum l) V \/ veq (vsum l) V /\ (room k l <= N)%nat /\ (k = KComp -> Forall (fun o => (width o <= B)%nat) l)).
Lemma room_perm (l l' : list op) : Permutation l l' -> room k l = room k l'.
Proof. intros P. destruct k; apply measure_perm, P. Qed.
Lemma inv_perm l l' : Permutation l l' -> inv l -> inv l'.
Proof.
  intros P [W H]. split; [eapply good_perm; eauto|]. pose proof (vsum_perm _ _ P) as E. destruct H as [H|[H1 [H2 H3]]].
  - left. eapply vlt_ext; [| |exact H]; [intros i; symmetry; apply E|intros i; reflexivity].
  - right. split; [intros i; rewrite <- E; apply H1|]. split; [rewrite <- (room_perm _ _ P); exact H2|]. intros Q. eapply good_perm; [exact P|auto].
Qed.
Lemma vsum_cons o l j : vsum (o :: l) j = (cnt o j + vsum l j)%nat. Proof. reflexivity. Qed.
Lemma vlt_cons o1 o2 o rest : vlt (cnt o) (vsum [o1; o2]) -> vlt (vsum (o :: rest)) (vsum (o1 :: o2 :: rest)).
Proof.
  intros H. apply (vlt_add (vsum rest)) in H. eapply vlt_ext; [| |exact H]; intros j; [reflexivity|rewrite vsum_two, !vsum_cons; lia].
Qed.
Lemma inv_step o1 o2 o rest : small k o1 o2 o -> inv (o1 :: o2 :: rest) -> inv (o :: rest).
Proof.
  intros [Wo So] [W H]. apply Forall_cons_iff in W. destruct W as [W1 W]. apply Forall_cons_iff in W. destruct W as [W2 W]. split; [constructor; auto|].
  destruct So as [So|[So Bo]].
  - left. apply vlt_cons with (rest := rest) in So. destruct H as [H|[H _]]; [eapply vlt_trans; eauto|]. eapply vlt_ext; [| |exact So]; [intros i; reflexivity|intros i; symmetry; apply H].
  - assert (E : veq (vsum (o :: rest)) (vsum (o1 :: o2 :: rest))) by (intros j; rewrite !vsum_cons, So, vsum_two; lia).
    destruct H as [H|[H1 [H2 H3]]].
    + left. eapply vlt_ext; [exact E| |exact H]. intros i. reflexivity.
    + right. split; [intros i; rewrite E; apply H1|]. unfold base in Bo. destruct k; simpl in H2 |- *.
      * split; [lia|]. intros _. specialize (H3 eq_refl). apply Forall_cons_iff in H3. destruct H3 as [X1 H3]. apply Forall_cons_iff in H3. destruct H3 as [X2 H3].
        constructor; [apply Bo; auto|exact H3].
      * split; [lia|discriminate].
      * split; [lia|discriminate].
Qed.
(** What is smaller than two operands is smaller than the bounds. *)
Definition below (k' : kind) (l : list op) (v : nat -> nat) (m : nat) : Prop := vlt (vsum l) v \/ veq (vsum l) v /\ (room k' l < m)%nat.
Lemma below_inv k' l o1 o2 rest : inv (o1 :: o2 :: rest) -> below k' l (vsum [o1; o2]) (room k [o1; o2]) -> below k' l V N.
Proof.
  intros [W H] Q.
  assert (Le : vlt (vsum [o1; o2]) (vsum (o1 :: o2 :: rest)) \/ veq (vsum [o1; o2]) (vsum (o1 :: o2 :: rest))).
  { apply (vle_cases (S (fold_right (fun o n => Nat.max (bdepth o) n) 0%nat (o1 :: o2 :: rest)))).
    - intros i. rewrite vsum_two, !vsum_cons. lia.
    - apply vsum_light. rewrite Forall_forall. intros o Ho. eapply light_mono; [|apply cnt_light]. apply le_n_S. apply maxdepth. exact Ho. }
  assert (R : (room k [o1; o2] <= room k (o1 :: o2 :: rest))%nat) by (destruct k; simpl; lia).
  assert (V1 : vlt (vsum [o1; o2]) V \/ veq (vsum [o1; o2]) V /\ (room k [o1; o2] <= N)%nat).
  { destruct Le as [Le|Le], H as [H|[H [H' _]]].
    - left. eapply vlt_trans; eauto.
    - left. eapply vlt_ext; [| |exact Le]; [intros i; reflexivity|intros i; symmetry; apply H].
    - left. eapply vlt_ext; [exact Le| |exact H]. intros i. reflexivity.
    - right. split; [intros i; rewrite Le; apply H|lia]. }
  destruct Q as [Q|[Q1 Q2]], V1 as [V1|[V1 V2]].
  - left. eapply vlt_trans; eauto.
  - left. eapply vlt_ext; [| |exact Q]; [intros i; reflexivity|intros i; symmetry; apply V1].
  - left. eapply vlt_ext; [exact Q1| |exact V1]. intros i. reflexivity.
  - right. split; [intros i; rewrite Q1; apply V1|lia].
Qed.
Lemma move_inv l : inv l -> inv (move_homothety is_homo (is_zero_data env) l).
Proof. intros H. pose proof H as [W _]. eapply inv_perm; [|exact H]. eapply move_homothety_perm; [|exact W]. exact homo_zero. Qed.


Section Step.
Variable bld : kind -> list op -> out op.
Hypothesis Hb : forall k ops o, Forall wf ops -> bld k ops = ret o -> wf o /\ Bound k ops o.
Lemma pair_perm (l1 : list op) o1 o2 l2 : Permutation (l1 ++ o1 :: o2 :: l2) (o1 :: o2 :: l1 ++ l2).
Proof. rewrite <- Permutation_middle. apply perm_skip. rewrite <- Permutation_middle. reflexivity. Qed.
Lemma inv_two o1 o2 rest : inv (o1 :: o2 :: rest) -> wf o1 /\ wf o2.
Proof. intros [W _]. inversion W as [|? ? W1 W']; subst. inversion W'; auto. Qed.
Lemma comp_step l1 o1 o2 l2 nw : k = KComp -> inv (l1 ++ o1 :: o2 :: l2) -> first_rule (pair_rules env bld o1 o2) o1 o2 = ret (Some nw) ->
  exists o, nw = One o /\ inv (l1 ++ o :: l2).
Proof.
  intros Hk I E. apply first_rule_In in E. destruct E as [f [Hf E]]. unfold pair_rules in Hf. apply in_map_iff in Hf. destruct Hf as [r [<- Hr]].
  apply pair_calls in Hr. destruct Hr as [o [Hc [R2 R1]]].
  unfold run_rule_comp in E. apply obind_ret in E. destruct E as [[n'|] [E H]]; apply ret_inj in H; [|discriminate]. injection H as <-. exists n'. split; [reflexivity|].
  apply (inv_perm _ _ (pair_perm _ _ _ _)) in I. destruct (inv_two _ _ _ I) as [W1 W2]. apply (inv_perm (n' :: l1 ++ l2)); [apply Permutation_middle|].
  revert I. apply inv_step. rewrite Hk. exact (comp_small_run bld Hb o r o1 o2 n' Hc R2 R1 W1 W2 E).
Qed.
Lemma comm_step_inv oi oj rest f o : k <> KComp -> inv (oi :: oj :: rest) -> In f (comm_rules_of k bld oi) -> f oi oj = ret (Some o) -> inv (o :: rest).
Proof.
  intros Hk I Hf E. destruct (inv_two _ _ _ I) as [W1 W2]. revert I. apply inv_step. unfold comm_rules_of in Hf. destruct k; [contradiction| |].
  - unfold add_rules_of in Hf. apply in_map_iff in Hf. destruct Hf as [r [<- Hr]]. apply (add_small_run bld Hb oi r oj o (add_calls _ _ Hr) W1 W2 E).
  - unfold mul_rules_of in Hf. apply in_map_iff in Hf. destruct Hf as [r [<- Hr]]. apply (mul_small_run bld Hb oi r oj o (mul_calls _ _ Hr) W1 W2 E).
Qed.
End Step.
End Invariant.

(** The stage of the homotheties *)
Lemma absorb_atom bld r o1 o2 n : predicate r = RAbsorb -> run_rule env bld r o1 o2 = ret (Some n) -> flat n.
Proof.
  intros P. unfold run_rule. rewrite P. destruct (match other _ _ with Str _ => _ | Cls _ => _ end); [|discriminate]. cbn [predicate_of].
  destruct o1 as [a| | | | | | | | | | |]; try discriminate. destruct (data o2) as [[d|]|]; try discriminate.
  destruct (a_absorb env a) as [f|]; [|discriminate]. intros E. apply ret_inj in E. injection E as <-. intros j. reflexivity.
Qed.
Lemma stage_weighted bld W j B ops ops1 : (5 <= B)%nat -> Forall (fun o => wf o /\ (width o <= B)%nat) ops ->
  homothety_stage keqb (linear env) is_ident scalar_of Ident (mkhomo env) (homo_left env bld) (homo_right env bld) ops = ret ops1 ->
  Forall (fun o => wf o /\ (width o <= B)%nat) ops1 /\ (measure (fun o => size o + W * cnt o j) ops1 <= measure (fun o => size o + W * cnt o j) ops)%nat.
Proof.
  intros HB. apply homothety_stage_measure.
  - apply keq. reflexivity.
  - split; [split; [exact I|exact HB]|simpl; lia].
  - intros o d. destruct o; try discriminate. simpl. lia.
  - intros d. destruct (mkhomo_small env d) as [A [A' _]]. pose proof (diag_flat (S0 d) j) as F. cbn [mkdiag] in F. rewrite F. split; [split; [apply homo_wf|lia]|lia].
  - intros o r d o' G H E. apply homo_left_In in H. destruct H as [r' [-> P]]. destruct (absorb_run env true bld r' o (mkhomo env d) P) as [_ Q].
    destruct (Q o' E) as [Q1 [Q2 Q3]]. rewrite (absorb_atom _ _ _ _ _ P E j). split; [split; [exact Q1|lia]|lia].
  - intros o r d o' G H. rewrite homo_right_nil in H. destruct H.
Qed.
Lemma measure_weighted W j (l : list op) : measure (fun o => size o + W * cnt o j)%nat l = (measure size l + W * vsum l j)%nat.
Proof. unfold vsum. induction l as [|o l IH]; simpl; lia. Qed.
Lemma stage_inv bld B ops ops1 : (5 <= B)%nat -> Forall wf ops -> Forall (fun o => (width o <= B)%nat) ops ->
  homothety_stage keqb (linear env) is_ident scalar_of Ident (mkhomo env) (homo_left env bld) (homo_right env bld) ops = ret ops1 ->
  inv KComp (vsum ops) (measure size ops) B ops1.
Proof.
  intros HB W HW E. assert (F : Forall (fun o => wf o /\ (width o <= B)%nat) ops) by (rewrite Forall_forall in *; auto).
  pose proof (fun n j => stage_weighted bld n j B ops ops1 HB F E) as Q. destruct (Q 0%nat 0%nat) as [F1 S1]. rewrite !measure_weighted in S1. simpl in S1.
  assert (L : forall j, (vsum ops1 j <= vsum ops j)%nat).
  { intros j. destruct (Q (S (measure size ops)) j) as [_ S2]. rewrite !measure_weighted in S2. nia. }
  split; [eapply Forall_impl; [|exact F1]; intros ? [? ?]; assumption|].
  destruct (vle_cases (S (fold_right (fun o n => Nat.max (bdepth o) n) 0%nat ops)) _ _ L) as [H|H].
  - apply vsum_light. rewrite Forall_forall. intros o Ho. eapply light_mono; [|apply cnt_light]. apply le_n_S. apply maxdepth. exact Ho.
  - left. exact H.
  - right. split; [exact H|]. split; [simpl; lia|]. intros _. eapply Forall_impl; [|exact F1]. intros ? [? ?]; assumption.
Qed.

(** ** What a construction gives *)
Lemma inv_refl k B ops : Forall wf ops -> Forall (fun o => (width o <= B)%nat) ops -> inv k (vsum ops) (room k ops) B ops.
Proof. intros W H. split; [exact W|]. right. split; [intros i; reflexivity|]. split; [lia|auto]. Qed.
Lemma inv_wider k V N B ops : k <> KComp -> inv k V N 5 ops -> inv k V N B ops.
Proof. intros Hk [W [H|[H1 [H2 H3]]]]; (split; [exact W|]); [auto|]. right. split; [exact H1|]. split; [exact H2|]. intros E. contradiction. Qed.
Lemma inv_result k (V : nat -> nat) N B ops o : inv k V N B ops ->
  o = match ops with [a] => a | _ => match k with KComp => Comp ops | KAdd => Add ops | KMul => Mul ops end end ->
  wf o /\ (vlt (cnt o) V \/ veq (cnt o) V /\ match k with KComp => (5 <= B -> size o <= 1 + N /\ width o <= B) | KAdd => terms o <= 1 + N | KMul => bulk o <= 1 + N end%nat).
Proof.
  intros [W H] ->.
  assert (Q : forall c : list op -> op, (forall l, Forall wf l -> wf (c l)) -> (forall l j, cnt (c l) j = vsum l j) -> (forall l, (room k l <= N)%nat -> (k = KComp -> Forall (fun o => (width o <= B)%nat) l) ->
     match k with KComp => (5 <= B -> size (c l) <= 1 + N /\ width (c l) <= B) | KAdd => terms (c l) <= 1 + N | KMul => bulk (c l) <= 1 + N end%nat) ->
     wf (c ops) /\ (vlt (cnt (c ops)) V \/ veq (cnt (c ops)) V /\ match k with KComp => (5 <= B -> size (c ops) <= 1 + N /\ width (c ops) <= B) | KAdd => terms (c ops) <= 1 + N | KMul => bulk (c ops) <= 1 + N end%nat)).
  { intros c C1 C2 C3. split; [apply C1, W|]. destruct H as [H|[H1 [H2 H3]]].
    - left. eapply vlt_ext; [| |exact H]; [intros i; apply C2|intros i; reflexivity].
    - right. split; [intros i; rewrite C2; apply H1|]. apply C3; assumption. }
  assert (Q1 : wf (match k with KComp => Comp ops | KAdd => Add ops | KMul => Mul ops end) /\ (vlt (cnt (match k with KComp => Comp ops | KAdd => Add ops | KMul => Mul ops end)) V
     \/ veq (cnt (match k with KComp => Comp ops | KAdd => Add ops | KMul => Mul ops end)) V
       /\ match k with KComp => (5 <= B -> size (Comp ops) <= 1 + N /\ width (Comp ops) <= B) | KAdd => terms (Add ops) <= 1 + N | KMul => bulk (Mul ops) <= 1 + N end%nat)).
  { destruct k.
    - apply (Q (@Comp K atom)); [intros l; apply wf_Comp|intros; reflexivity|]. intros l R Wd HB. rewrite size_Comp. simpl in R. split; [lia|]. apply width_max; auto.
    - apply (Q (@Add K atom)); [intros l; apply wf_Add|intros; reflexivity|]. intros l R _. rewrite terms_Add. simpl in R. lia.
    - apply (Q (@Mul K atom)); [intros l; apply wf_Mul|intros; reflexivity|]. intros l R _. rewrite bulk_Mul. simpl in R. lia. }
  clear Q. destruct ops as [|a [|b l]]; [destruct k; exact Q1| |destruct k; exact Q1].
  clear Q1. split; [inversion W; auto|]. assert (E : forall j, vsum [a] j = cnt a j) by (intros j; unfold vsum; simpl; lia). destruct H as [H|[H1 [H2 H3]]].
  - left. eapply vlt_ext; [| |exact H]; [intros i; symmetry; apply E|intros i; reflexivity].
  - right. split; [intros i; rewrite <- E; apply H1|]. destruct k; simpl in H2; try lia. intros HB. specialize (H3 eq_refl). inversion H3; subst. split; [lia|assumption].
Qed.
Theorem Build_bound fuel : forall k ops o, Forall wf ops -> build env fuel k ops = ret o -> wf o /\ Bound k ops o.
Proof.
  induction fuel as [|fuel IH]; intros k ops o W; [discriminate|]. cbn [build]. destruct ops as [|a l]; [discriminate|]. set (ops := a :: l) in *.
  assert (C : k <> KComp -> forall ops1 : list op, (match k with KAdd => comm_rules (add_rules_of env (build env fuel)) is_homo (is_zero_data env) (turns (length ops)) ops | _ => comm_rules (mul_rules_of env (build env fuel)) is_homo (is_zero_data env) (turns (length ops)) ops end) = ret ops1 ->
      o = match ops1 with [o] => o | _ => match k with KComp => Comp ops1 | KAdd => Add ops1 | KMul => Mul ops1 end end -> wf o /\ Bound k ops o).
  { intros Hk ops1 H Ho. assert (I : inv k (vsum ops) (room k ops) 5 ops1).
    { assert (H' : comm_rules (comm_rules_of k (build env fuel)) is_homo (is_zero_data env) (turns (length ops)) ops = ret ops1) by (destruct k; exact H).
      refine (comm_rules_inv (fun _ => comm_rules_of k (build env fuel)) is_homo (is_zero_data env) (inv k (vsum ops) (room k ops) 5) _ _ _ 0%nat _ _ _ _ H').
      - apply inv_perm.
      - intros _ oi oj rest r o' I Hr E. eapply comm_step_inv; eauto.
      - apply move_inv.
      - split; [exact W|]. right. split; [intros i; reflexivity|]. split; [lia|]. intros E. contradiction. }
    destruct (inv_result _ _ _ _ _ _ I Ho) as [Wo [Q|[Q1 Q2]]]; (split; [exact Wo|]); [left; exact Q|]. right. split; [exact Q1|]. destruct k; [contradiction|exact Q2|exact Q2]. }
  destruct k.
  - intros H. apply obind_ret in H. destruct H as [ops1 [H1 H]]. apply obind_ret in H. destruct H as [ops2 [H2 H]]. apply ret_inj in H. symmetry in H.
    assert (Q : forall B, (5 <= B)%nat -> Forall (fun o => (width o <= B)%nat) ops -> inv KComp (vsum ops) (measure size ops) B ops2).
    { intros B HB HW. pose proof (stage_inv _ B ops ops1 HB W HW H1) as I. 
      refine (comp_rules_inv (fun _ => pair_rules env (build env fuel)) (inv KComp (vsum ops) (measure size ops) B) _ 0%nat _ _ _ I H2). clear I.
      intros _ l1 o1 o2 l2 nw I E. eapply comp_step; eauto. }
    destruct (width_one KComp ops) as [B [HB [HW _]]]. destruct (inv_result _ _ _ _ _ _ (Q B HB HW) H) as [Wo [R|[R1 R2]]]; (split; [exact Wo|]); [left; exact R|].
    right. split; [exact R1|]. split; [apply R2; exact HB|]. intros B' HB' HW'. destruct (inv_result _ _ _ _ _ _ (Q B' HB' HW') H) as [_ [R|[_ R3]]].
    + exfalso. destruct R as [j [L _]]. rewrite R1 in L. lia.
    + apply R3. exact HB'.
  - intros H. apply obind_ret in H. destruct H as [ops1 [H1 H]]. apply ret_inj in H. apply (C ltac:(discriminate) ops1 H1). symmetry. exact H.
  - intros H. apply obind_ret in H. destruct H as [ops1 [H1 H]]. apply ret_inj in H. apply (C ltac:(discriminate) ops1 H1). symmetry. exact H.
Qed.

(** ** The evaluation of a rule ends *)
Lemma ends_not_none {A} (m : out A) : m <> None -> ends (fun _ => m).
Proof. destruct m as [r|]; [|congruence]. intros _. apply ends_const. Qed.
Lemma mapo_lift_total {A} (l : list (result A)) : mapo lift l <> None.
Proof. induction l as [|[a|e] l IH]; simpl; [discriminate| |discriminate]. destruct (mapo lift l) as [[r|e]|]; [discriminate|discriminate|congruence]. Qed.
Lemma mkblock_total pi po (l : list op) : mkblock pi po l <> None.
Proof. unfold mkblock. destruct l as [|a [|b l]]; destruct pi, po; discriminate. Qed.
Definition ends_below (k : kind) (o1 o2 : op) : Prop :=
  forall k' l, Forall wf l -> below k' l (vsum [o1; o2]) (room k [o1; o2]) -> ends (fun n => build env n k' l).
Notation bld := (build env).
Lemma broadcast_None f mk (o1 o2 : op) : rule_broadcast f mk o1 o2 <> None.
Proof.
  unfold rule_broadcast. destruct (data o1) as [a|]; [|discriminate]. destruct (data o2) as [b|]; [|discriminate].
  unfold lift. destruct (bcast f a b) as [d|]; [|discriminate]. cbn [obind]. destruct (mk d); discriminate.
Qed.
Section Run.
Variables (k : kind) (o1 o2 : op).
Hypotheses (W1 : wf o1) (W2 : wf o2).
Hypothesis He : ends_below k o1 o2.
Definition heavy (D : nat) : Prop := (1 <= D)%nat /\ light (S D) o1 /\ light (S D) o2 /\ (1 <= cnt o1 D + cnt o2 D)%nat.
Lemma light_below D k' l m : heavy D -> Forall (light D) l -> below k' l (vsum [o1; o2]) m.
Proof.
  intros [HD [L1 [L2 H]]] F'. pose proof (proj2 (vsum_light l D) F') as F. left. exists D. rewrite vsum_two, F by lia. split; [lia|]. intros i Hi. rewrite vsum_two, F, L1, L2 by lia. reflexivity.
Qed.
Lemma pairs_ends D k' l1 l2 : heavy D -> Forall wf l1 -> Forall wf l2 -> Forall (light D) l1 -> Forall (light D) l2 ->
  ends (fun n => mapo (fun p => bld n k' [fst p; snd p]) (combine l1 l2)).
Proof.
  intros HD V1 V2 L1 L2. rewrite Forall_forall in V1, V2, L1, L2. apply (ends_mapo (fun n p => bld n k' [fst p; snd p])). intros [a b] Hp. cbn [fst snd].
  pose proof (in_combine_l _ _ _ _ Hp). pose proof (in_combine_r _ _ _ _ Hp). apply He; [repeat constructor; auto|]. eapply light_below; [exact HD|repeat constructor; auto].
Qed.
Lemma blockwise_ends D k' pi po l1 l2 : heavy D -> Forall wf l1 -> Forall wf l2 -> Forall (light D) l1 -> Forall (light D) l2 ->
  ends (fun n => blockwise (bld n) k' pi po l1 l2).
Proof.
  intros HD V1 V2 L1 L2. unfold blockwise. apply ends_some. apply (ends_bind (fun n => mapo (fun p => bld n k' [fst p; snd p]) (combine l1 l2))); [eapply pairs_ends; eauto|].
  intros l _. apply ends_not_none, mkblock_total.
Qed.
Lemma block_right_ends k' pi po l s pi' po' : o2 = Block pi po l -> flat o1 -> Forall (fun o => wf o /\ flat o) s -> ends (fun n => blockwise (bld n) k' pi' po' s l).
Proof.
  intros E F Fs. destruct (Block_depth pi po l) as [HD [HC HL]]. pose proof W2 as W. rewrite E in W. apply wf_Block in W. destruct (flats_light (bdepth (Block pi po l)) s Fs) as [Ws Ls].
  apply (blockwise_ends (bdepth (Block pi po l))); auto; [|apply W]. split; [exact HD|]. rewrite E, HC. split; [apply flat_light, F|]. split; [apply cnt_light|lia].
Qed.
Lemma block_left_ends k' pi po l s pi' po' : o1 = Block pi po l -> flat o2 -> Forall (fun o => wf o /\ flat o) s -> ends (fun n => blockwise (bld n) k' pi' po' l s).
Proof.
  intros E F Fs. destruct (Block_depth pi po l) as [HD [HC HL]]. pose proof W1 as W. rewrite E in W. apply wf_Block in W. destruct (flats_light (bdepth (Block pi po l)) s Fs) as [Ws Ls].
  apply (blockwise_ends (bdepth (Block pi po l))); auto; [|apply W]. split; [exact HD|]. rewrite E, HC. split; [apply cnt_light|]. split; [apply flat_light, F|lia].
Qed.
Lemma both_heavy pi po l pi' po' l' : o1 = Block pi po l -> o2 = Block pi' po' l' -> exists D, heavy D /\ Forall (light D) l /\ Forall (light D) l' /\ Forall wf l /\ Forall wf l'.
Proof.
  intros E1 E2. destruct (two_blocks pi po l pi' po' l') as [D [HD [L1 [L2 [HC [HL HL']]]]]]. exists D. unfold heavy. rewrite E1, E2.
  pose proof W1 as V1. rewrite E1 in V1. apply wf_Block in V1. pose proof W2 as V2. rewrite E2 in V2. apply wf_Block in V2. tauto.
Qed.
Lemma block_both_ends k' pi po l pi' po' l' pi'' po'' : o1 = Block pi po l -> o2 = Block pi' po' l' -> ends (fun n => blockwise (bld n) k' pi'' po'' l l').
Proof. intros E1 E2. destruct (both_heavy _ _ _ _ _ _ E1 E2) as [D [H1 [H2 [H3 [H4 H5]]]]]. eapply blockwise_ends; eauto. Qed.
Lemma block_sum_ends pi po l pi' po' l' : o1 = Block pi po l -> o2 = Block pi' po' l' ->
  ends (fun n => some (l'' <~ mapo (fun p => bld n KComp [fst p; snd p]) (combine l l') ;; bld n KAdd l'')).
Proof.
  intros E1 E2. destruct (both_heavy _ _ _ _ _ _ E1 E2) as [D [H1 [H2 [H3 [H4 H5]]]]]. apply ends_some.
  apply (ends_bind (fun n => mapo (fun p => bld n KComp [fst p; snd p]) (combine l l')) (fun n => bld n KAdd)); [eapply pairs_ends; eauto|].
  intros l'' [N HN]. specialize (HN N (Nat.le_refl N)). destruct (pairs_light (bld N) (Build_bound N) KComp l l' D H4 H5 H2 H3 l'' HN) as [W'' L''].
  apply He; [exact W''|]. eapply light_below; eauto.
Qed.
Lemma slide_ends {A} (r : list (result op)) (f : nat -> list op -> out A) : (forall s, mapo lift r = ret s -> ends (fun n => f n s)) -> ends (fun n => obind (mapo lift r) (f n)).
Proof. intros H. apply (ends_bind (fun _ => mapo lift r)); [apply ends_not_none, mapo_lift_total|]. intros s [N HN]. apply H. exact (HN N (Nat.le_refl N)). Qed.
Lemma broadcast_ends f mk : ends (fun _ => rule_broadcast f mk o1 o2).
Proof. apply ends_not_none, broadcast_None. Qed.
Lemma call_ends {A} (r : result A) (f : A -> result op) : ends (fun _ => some (y <~ lift r ;; lift (f y))).
Proof. apply ends_not_none. destruct r; [|discriminate]. cbn [lift obind]. unfold lift, some. destruct (f a); discriminate. Qed.
End Run.
Lemma repeat_wf_flat o n : wf o -> flat o -> Forall (fun o => wf o /\ flat o) (repeat o n).
Proof. intros W F. rewrite Forall_forall. intros x Hx. apply repeat_spec in Hx. subst. auto. Qed.

Lemma comp_run_end k o1 o2 o r : wf o1 -> wf o2 -> ends_below k o1 o2 -> k = KComp -> In (Set_ Composition r) (calls env o) -> (if reference cls_eqb r then o2 = o else True) -> (if reference cls_eqb r then True else o1 = o) ->
  ends (fun n => run_rule env (bld n) r o1 o2).
Proof.
  intros W1 W2 He Hk Hc R2 R1. pose proof (proj1 (calls_where _ _ _ _ Hc)) as Hw. pose proof (calls_block _ _ _ Hc) as Hbr.
  unfold run_rule. destruct (match other _ _ with Str _ => _ | Cls _ => _ end); [|apply ends_const].
  unfold where_rule in Hw. unfold block_rule_of in Hbr. destruct (predicate r) eqn:P; cbn [predicate_of]; try apply ends_const; try (destruct Hw; discriminate); try apply broadcast_ends; try discriminate Hw.
  - (* RBlockL *) destruct Hbr as [[a A] R]. rewrite R in R1. pose proof A as F. rewrite <- R1 in F. apply data_flat in F. destruct o2 as [| | | | | | | | | | |pi [po|] l]; try apply ends_const. destruct (may_slide env o1); [|apply ends_const].
    apply slide_ends. intros s Hs. eapply block_right_ends; [exact W2|exact He|reflexivity|exact F|]. exact (sliced_flat _ _ _ W1 F Hs).
  - (* RBlockR *) destruct Hbr as [[a A] R]. rewrite R in R2. pose proof A as F. rewrite <- R2 in F. apply data_flat in F. destruct o1 as [| | | | | | | | | | |[pi|] po l]; try apply ends_const. destruct (may_slide env o2); [|apply ends_const].
    apply slide_ends. intros s Hs. eapply block_left_ends; [exact W1|exact He|reflexivity|exact F|]. exact (sliced_flat _ _ _ W2 F Hs).
  - (* RConstR *) destruct (is_unconstrained env o1); [apply ends_const|]. destruct o2 as [| | | |[s|v]| | | | | | |]; try apply ends_const; [destruct (explicit_shapein env o1); [|apply ends_const]|]; apply call_ends.
  - (* RZeroR *) destruct (linear env o1); [apply ends_const|]. destruct (is_unconstrained env o1); [apply ends_const|]. destruct (explicit_shapein env o1); [|apply ends_const]. apply call_ends.
  - (* RPowComp *) destruct o1; try apply ends_const. destruct o2; apply ends_const.
  - (* RCompComp *) destruct o1 as [| | | | | | | |l1| | |]; try apply ends_const. destruct o2 as [| | | | | | | |l2| | |]; try apply ends_const.
    apply ends_some. apply wf_Comp in W1. apply wf_Comp in W2. apply He; [apply Forall_app; auto|]. right. split; [intros j; rewrite vsum_app, vsum_two, !cnt_Comp; reflexivity|].
    rewrite Hk. cbn [room]. rewrite measure_app. cbn [measure fold_right]. rewrite !size_Comp. lia.
  - (* RCompOp *) destruct o1 as [| | | | | | | |l1| | |]; try apply ends_const.
    apply ends_some. apply wf_Comp in W1. apply He; [apply Forall_app; auto|]. right. split; [intros j; rewrite vsum_app, vsum_two, !cnt_Comp; unfold vsum at 2; simpl; lia|].
    rewrite Hk. cbn [room]. rewrite measure_app. cbn [measure fold_right]. rewrite !size_Comp. lia.
  - (* ROpComp *) destruct o2 as [| | | | | | | |l2| | |]; try apply ends_const.
    apply ends_some. apply wf_Comp in W2. apply He; [auto|]. right. split; [intros j; rewrite vsum_two, !cnt_Comp; reflexivity|].
    rewrite Hk. cbn [room]. cbn [measure fold_right]. rewrite !size_Comp. unfold measure. lia.
  - (* RAbsorb *) destruct o1; try apply ends_const. destruct (data o2) as [[d|]|]; try apply ends_const. destruct (a_absorb env a); apply ends_const.
  - (* RSepL *) destruct o2 as [| | | | | | | | | | |pi [po|] l]; try apply ends_const. destruct (negb (is_block o1)); [|apply ends_const]. destruct (separable env o1) eqn:S; [|apply ends_const].
    cbn [andb]. apply separable_flat in S. eapply block_right_ends; [exact W2|exact He|reflexivity|exact S|auto using repeat_wf_flat].
  - (* RSepR *) destruct o1 as [| | | | | | | | | | |[pi|] po l]; try apply ends_const. destruct (separable env o2) eqn:S; [|apply ends_const].
    apply separable_flat in S. eapply block_left_ends; [exact W1|exact He|reflexivity|exact S|auto using repeat_wf_flat].
  - (* RBlockComp *) destruct o1 as [| | | | | | | | | | |[p|] po l]; try apply ends_const. destruct o2 as [| | | | | | | | | | |pi [q|] l']; try apply ends_const.
    destruct (list_eqb Nat.eqb p q); [|apply ends_const]. destruct pi as [pi|]; [eapply block_both_ends; [exact W1|exact W2|exact He|reflexivity|reflexivity]|]. destruct po as [po|]; [eapply block_both_ends; [exact W1|exact W2|exact He|reflexivity|reflexivity]|eapply block_sum_ends; [exact W1|exact W2|exact He|reflexivity|reflexivity]].
Qed.
Lemma block_add_ends k o1 o2 r : wf o1 -> wf o2 -> ends_below k o1 o2 -> block_rule_of o1 r -> predicate r = (match k with KAdd => RBlockAdd | _ => RBlockMul end) -> forall k', ends (fun n => rule_block_add env (bld n) k' o1 o2).
Proof.
  intros W1 W2 He Hbr P k'. assert (A : exists a, data o1 = Some a) by (unfold block_rule_of in Hbr; rewrite P in Hbr; destruct k; apply Hbr). destruct A as [a A]. apply data_flat in A.
  unfold rule_block_add. destruct o2 as [| | | | | | | | | | |pi [po|] l]; try apply ends_const. destruct (may_add env o1 pi (Some po)); [|apply ends_const].
  apply slide_ends. intros s Hs. eapply block_right_ends; [exact W2|exact He|reflexivity|exact A|]. exact (sliced_flat _ _ _ W1 A Hs).
Qed.
Lemma sep_ends k o1 o2 k' : wf o1 -> wf o2 -> ends_below k o1 o2 -> ends (fun n => rule_sep env (bld n) k' o1 o2).
Proof.
  intros W1 W2 He. unfold rule_sep. destruct o1 as [| | | | | | | | | | |pi po l]; try apply ends_const. destruct (separable env o2) eqn:S; [|apply ends_const]. cbn [andb].
  destruct (negb (blocks_fixed env) || partition_eqb pi po)%bool; [|apply ends_const]. apply separable_flat in S. eapply block_left_ends; [exact W1|exact He|reflexivity|exact S|auto using repeat_wf_flat].
Qed.
Lemma same_ends k o1 o2 k' : wf o1 -> wf o2 -> ends_below k o1 o2 -> ends (fun n => rule_same env (bld n) k' o1 o2).
Proof.
  intros W1 W2 He. unfold rule_same. destruct o1 as [| | | | | | | | | | |pi po l]; try apply ends_const. destruct o2 as [| | | | | | | | | | |pi' po' l']; try apply ends_const.
  match goal with |- ends (fun n => if ?b then _ else _) => destruct b; [|apply ends_const] end. eapply block_both_ends; [exact W1|exact W2|exact He|reflexivity|reflexivity].
Qed.
Lemma add_run_end k o1 o2 r : wf o1 -> wf o2 -> ends_below k o1 o2 -> k = KAdd -> In (Set_ Addition r) (calls env o1) -> ends (fun n => run_rule env (bld n) r o1 o2).
Proof.
  intros W1 W2 He Hk Hc. destruct (calls_where _ _ _ _ Hc) as [Hw R]. specialize (R ltac:(discriminate)). pose proof (calls_block _ _ _ Hc) as Hbr.
  unfold run_rule. rewrite R. destruct (match other _ _ with Str _ => _ | Cls _ => _ end); [|apply ends_const].
  unfold where_rule in Hw. destruct (predicate r) eqn:P; cbn [predicate_of]; try apply ends_const; try (destruct Hw; discriminate); try apply broadcast_ends; try discriminate Hw.
  - eapply block_add_ends; [exact W1|exact W2|exact He|exact Hbr|]. rewrite Hk. exact P.
  - destruct Hw as [l ->]. apply ends_some. apply wf_Add in W1. apply He; [apply Forall_app; auto|]. right. split; [intros j; rewrite vsum_app, vsum_two, cnt_Add; unfold vsum at 2; simpl; lia|].
    rewrite Hk. cbn [room]. rewrite measure_app. cbn [measure fold_right]. rewrite terms_Add. lia.
  - destruct Hw as [l ->]. destruct o2 as [| | | | | | | | |l2| |]; try apply ends_const. apply ends_some. apply wf_Add in W1. apply wf_Add in W2. apply He; [apply Forall_app; auto|].
    right. split; [intros j; rewrite vsum_app, vsum_two, !cnt_Add; reflexivity|]. rewrite Hk. cbn [room]. rewrite measure_app. cbn [measure fold_right]. rewrite !terms_Add. lia.
  - eapply sep_ends; eauto.
  - eapply same_ends; eauto.
Qed.
Lemma lift_ends {A B} (r : result A) (f : nat -> A -> out B) : (forall a, r = Ok a -> ends (fun n => f n a)) -> ends (fun n => obind (lift r) (f n)).
Proof. intros H. destruct r as [a|e]; [exact (H a eq_refl)|apply ends_const]. Qed.
Lemma mul_run_end k o1 o2 r : wf o1 -> wf o2 -> ends_below k o1 o2 -> k = KMul -> In (Set_ Multiplication r) (calls env o1) -> ends (fun n => run_rule env (bld n) r o1 o2).
Proof.
  intros W1 W2 He Hk Hc. destruct (calls_where _ _ _ _ Hc) as [Hw R]. specialize (R ltac:(discriminate)). pose proof (calls_block _ _ _ Hc) as Hbr.
  unfold run_rule. rewrite R. destruct (match other _ _ with Str _ => _ | Cls _ => _ end) eqn:Ap; [|apply ends_const].
  unfold where_rule in Hw. destruct (predicate r) eqn:P; cbn [predicate_of]; try apply ends_const; try (destruct Hw; discriminate); try apply broadcast_ends; try discriminate Hw.
  - eapply block_add_ends; [exact W1|exact W2|exact He|exact Hbr|]. rewrite Hk. exact P.
  - (* RMulDiag *) destruct Hw as [_ [D Hs]]. unfold other in Ap. rewrite R, Hs in Ap. cbn [snd] in Ap. rewrite isinstance_sub in Ap by discriminate.
    destruct (data o1) as [a|] eqn:A; [|apply ends_const]. destruct (data o2) as [b|] eqn:B; [|apply ends_const].
    apply ends_some. apply lift_ends. intros c E1. apply lift_ends. intros oc E2. apply He.
    + constructor; [eapply mkconst_wf; eauto|constructor; [apply mkpower_wf|constructor]].
    + right. split; [apply vsum_flat; [eapply const_flat; eauto|apply power_flat|eapply data_flat; eauto|eapply data_flat; eauto]|].
      rewrite Hk. simpl. apply mkconst_bulk in E2. apply diag_bulk in D. apply diag_bulk in Ap. unfold bulk in *. simpl. lia.
  - (* RConstMul *) destruct (data o1) as [a|] eqn:A; [|destruct o2; apply ends_const].
    assert (Q : ends (fun n => bld n KComp [mkdiag env a; o2])).
    { apply He; [constructor; [apply diag_wf|constructor; auto]|]. right. split; [intros j; rewrite !vsum_two, diag_flat, (data_flat _ _ A j); reflexivity|].
      rewrite Hk. simpl. destruct (mkdiag_small env a) as [S1 _]. apply data_bulk in A. unfold bulk in *. lia. }
    destruct o2 as [| | | | | | | | | | |? [?|] ?]; try (destruct (linear env _); [|apply ends_const]); apply ends_some; exact Q.
  - (* RPowMul *) destruct o1; try apply ends_const. destruct o2; apply ends_const.
  - (* RPowDiag *) destruct Hw as [_ Hs]. unfold other in Ap. rewrite R, Hs in Ap. cbn [snd] in Ap. rewrite isinstance_sub in Ap by discriminate.
    destruct o1 as [| | | | | | |p| | | |]; try apply ends_const. destruct (data o2) as [a|] eqn:A; [|apply ends_const].
    apply ends_some. apply lift_ends. intros oc E2. simpl in W1. rewrite mkpower_eq by lia. apply He.
    + constructor; [eapply mkconst_wf; eauto|constructor; [simpl; lia|constructor]].
    + right. split; [apply vsum_flat; [eapply const_flat; eauto|intros j; reflexivity|intros j; reflexivity|eapply data_flat; eauto]|].
      rewrite Hk. simpl. destruct (diag_bulk _ Ap) as [_ [->|D]].
      * injection A as <-. apply const_one in E2. unfold bulk in *. simpl in *. lia.
      * apply mkconst_bulk in E2. unfold bulk in *. simpl in *. lia.
  - destruct Hw as [l ->]. apply ends_some. apply wf_Mul in W1. apply He; [apply Forall_app; auto|]. right. split; [intros j; rewrite vsum_app, vsum_two, cnt_Mul; unfold vsum at 2; simpl; lia|].
    rewrite Hk. cbn [room]. rewrite measure_app. cbn [measure fold_right]. rewrite bulk_Mul. lia.
  - destruct Hw as [l ->]. destruct o2 as [| | | | | | | | | |l2 |]; try apply ends_const. apply ends_some. apply wf_Mul in W1. apply wf_Mul in W2. apply He; [apply Forall_app; auto|].
    right. split; [intros j; rewrite vsum_app, vsum_two, !cnt_Mul; reflexivity|]. rewrite Hk. cbn [room]. rewrite measure_app. cbn [measure fold_right]. rewrite !bulk_Mul. lia.
  - eapply sep_ends; eauto.
  - eapply same_ends; eauto.
Qed.

(** ** Every construction ends *)
Lemma ends_ret {A B} (m : nat -> out A) (f : A -> B) : ends m -> ends (fun n => a <~ m n ;; ret (f a)).
Proof. intros H. apply (ends_bind m (fun _ a => ret (f a))); [exact H|]. intros a _. apply ends_const. Qed.
Lemma absorb_rules_end o d : ends (fun n => first_rule1 (homo_left env (bld n) o) o (mkhomo env d)) /\ ends (fun n => first_rule1 (homo_right env (bld n) o) (mkhomo env d) o).
Proof.
  split.
  - unfold homo_left. apply (first_rule1_ends (fun n => run_rule env (bld n))). intros r Hr.
    assert (P : predicate r = RAbsorb).
    { apply filter_In in Hr. destruct Hr as [H S]. destruct (op_rules_from env o) as [_ [_ [A _]]]. destruct (A r H) as [Hc _]. exact (proj1 (calls_homothety env o r Hc) S). }
    unfold run_rule. rewrite P. destruct (match other _ _ with Str _ => _ | Cls _ => _ end); [|apply ends_const]. cbn [predicate_of].
    destruct o; try apply ends_const. destruct (data (mkhomo env d)) as [[e|]|]; try apply ends_const. destruct (a_absorb env a); apply ends_const.
  - exists (Ok None), 0%nat. intros n _. rewrite homo_right_nil. reflexivity.
Qed.
Theorem Build_ends k ops : Forall wf ops -> ends (fun n => bld n k ops).
Proof.
  set (D := S (fold_right (fun o n => Nat.max (bdepth o) n) 0%nat ops)).
  assert (HD : forall i, (D <= i)%nat -> vsum ops i = 0%nat).
  { apply vsum_light. rewrite Forall_forall. intros o Ho. eapply light_mono; [|apply cnt_light]. apply le_n_S. apply maxdepth. exact Ho. }
  enough (Q : forall v, (forall i, (D <= i)%nat -> v i = 0%nat) -> forall m k ops, room k ops = m -> veq (vsum ops) v -> Forall wf ops -> ends (fun n => bld n k ops))
    by (intros W; exact (Q (vsum ops) HD (room k ops) k ops eq_refl (fun i => eq_refl) W)).
  clearbody D. clear k ops HD.
  apply (vlt_induction D (fun v => forall m k ops, room k ops = m -> veq (vsum ops) v -> Forall wf ops -> ends (fun n => bld n k ops))).
  intros v _ IHv. induction m as [m IHm] using lt_wf_ind. intros k ops Hm Hv W.
  assert (He : forall k' l, Forall wf l -> below k' l (vsum ops) (room k ops) -> ends (fun n => bld n k' l)).
  { intros k' l Wl [H|[H1 H2]].
    - apply (IHv (vsum l)) with (m := room k' l); auto; [|intros i; reflexivity]. eapply vlt_ext; [| |exact H]; [intros i; reflexivity|intros i; symmetry; apply Hv].
    - apply (IHm (room k' l)); auto; [lia|]. intros i. rewrite H1. apply Hv. }
  clear IHv IHm Hv Hm v m D.
  destruct ops as [|a l]; [apply (ends_S (fun _ => fail ValueError)); [apply ends_const|reflexivity]|]. set (ops := a :: l) in *.
  assert (C : k <> KComp -> ends (fun n => comm_rules (comm_rules_of k (bld n)) is_homo (is_zero_data env) (turns (length ops)) ops)).
  { intros Hk. apply (comm_rules_ends (fun n => comm_rules_of k (bld n)) is_homo (is_zero_data env) (inv k (vsum ops) (room k ops) 5)).
    - apply inv_perm.
    - intros n oi oj rest r o I Hr E. eapply comm_step_inv; eauto. apply Build_bound.
    - intros oi oj rest I. destruct (inv_two _ _ _ _ _ _ _ I) as [W1 W2].
      assert (Hp : ends_below k oi oj) by (intros k' l' Wl Hl; apply He; [exact Wl|]; eapply below_inv; eauto).
      unfold comm_rules_of. destruct k; [contradiction| |].
      + unfold add_rules_of. apply (first_rule1_ends (fun n => run_rule env (bld n))). intros r Hr. eapply add_run_end; eauto using add_calls.
      + unfold mul_rules_of. apply (first_rule1_ends (fun n => run_rule env (bld n))). intros r Hr. eapply mul_run_end; eauto using mul_calls.
    - split; [exact W|]. right. split; [intros i; reflexivity|]. split; [lia|]. intros E. contradiction. }
  destruct k.
  - apply (ends_S (fun n => ops1 <~ homothety_stage keqb (linear env) is_ident scalar_of Ident (mkhomo env) (homo_left env (bld n)) (homo_right env (bld n)) ops ;;
              ops2 <~ comp_rules (pair_rules env (bld n)) (turns (length ops1)) ops1 ;; ret (match ops2 with [o] => o | _ => Comp ops2 end))); [|reflexivity].
    apply (ends_bind (fun n => homothety_stage keqb (linear env) is_ident scalar_of Ident (mkhomo env) (homo_left env (bld n)) (homo_right env (bld n)) ops)).
    { apply homothety_stage_ends; intros o d; apply absorb_rules_end. }
    intros ops1 [N HN]. specialize (HN N (Nat.le_refl N)).
    apply (ends_ret (fun n => comp_rules (pair_rules env (bld n)) (turns (length ops1)) ops1)).
    destruct (width_one KComp ops) as [B [HB [HW _]]]. pose proof (stage_inv _ B ops ops1 HB W HW HN) as I.
    apply (comp_rules_ends (fun n => pair_rules env (bld n)) (inv KComp (vsum ops) (measure size ops) B)).
    + intros n l1 o1 o2 l2 nw J E. eapply comp_step; eauto. apply Build_bound.
    + intros l1 o1 o2 l2 J. apply (inv_perm _ _ _ _ _ _ (pair_perm _ _ _ _)) in J. destruct (inv_two _ _ _ _ _ _ _ J) as [W1 W2].
      assert (Hp : ends_below KComp o1 o2) by (intros k' l' Wl Hl; apply He; [exact Wl|]; eapply below_inv; eauto).
      unfold pair_rules. apply (first_rule_ends (fun n => run_rule_comp env (bld n))). intros r Hr. apply pair_calls in Hr. destruct Hr as [o [Hc [R2 R1]]].
      unfold run_rule_comp. apply (ends_ret (fun n => run_rule env (bld n) r o1 o2)). eapply comp_run_end; eauto.
    + exact I.
  - apply (ends_S (fun n => ops1 <~ comm_rules (add_rules_of env (bld n)) is_homo (is_zero_data env) (turns (length ops)) ops ;; ret (match ops1 with [o] => o | _ => Add ops1 end))); [|reflexivity].
    apply ends_ret. exact (C ltac:(discriminate)).
  - apply (ends_S (fun n => ops1 <~ comm_rules (mul_rules_of env (bld n)) is_homo (is_zero_data env) (turns (length ops)) ops ;; ret (match ops1 with [o] => o | _ => Mul ops1 end))); [|reflexivity].
    apply ends_ret. exact (C ltac:(discriminate)).
Qed.
End Calc.
