From Verif Require Import Base ContextModel ContextSpec.
Local Open Scope Z_scope.

(** ** Timer *)
Lemma timer_inv c now past : well_nested past ->
  let t := run_timer c now past in
  cumulative t = c /\ level t = Z.of_nat (depth past) /\ elapsed t = time_inside c past.
Proof.
  induction past as [|e p IH]; simpl; intros H; [auto|].
  destruct e as [d| | |]; simpl in H.
  - specialize (IH H); destruct IH as (Hc & Hl & He). unfold step, elapsed in *; simpl. rewrite Hl in *.
    split; [auto|split; [auto|]]. destruct (depth p); simpl in *; [auto|]. lia.
  - specialize (IH H); destruct IH as (Hc & Hl & He). cbn [step depth time_inside]. unfold enter, elapsed in *. rewrite Hl in *.
    destruct (depth p) as [|k].
    + simpl in *. rewrite Hc. split; [auto|split; [auto|]]. destruct c; lia.
    + replace (Z.of_nat (S k) + 1 =? 1) with false by (symmetry; apply Z.eqb_neq; lia).
      cbn [cumulative level elapsed_ start clock].
      replace (Z.of_nat (S k) =? 0) with false in He by (symmetry; apply Z.eqb_neq; lia).
      replace (Z.of_nat (S k) + 1 =? 0) with false by (symmetry; apply Z.eqb_neq; lia).
      split; [auto|split; lia].
  - destruct H as [Hd H]. specialize (IH H); destruct IH as (Hc & Hl & He). cbn [step depth time_inside]. unfold exit, elapsed in *. rewrite Hl in *.
    destruct (depth p) as [|k]; [lia|]. simpl pred.
    replace (Z.of_nat (S k) =? 0) with false in He by (symmetry; apply Z.eqb_neq; lia).
    destruct (0 <? Z.of_nat (S k) - 1) eqn:E; cbn [cumulative level elapsed_ start clock].
    + apply Z.ltb_lt in E. split; [auto|split; [lia|]].
      replace (Z.of_nat (S k) - 1 =? 0) with false by (symmetry; apply Z.eqb_neq; lia). lia.
    + apply Z.ltb_ge in E. split; [auto|split; [lia|]].
      replace (Z.of_nat (S k) - 1 =? 0) with true by (symmetry; apply Z.eqb_eq; lia). lia.
  - destruct H as [Hd H]. specialize (IH H); destruct IH as (Hc & Hl & He). simpl. unfold reset, elapsed in *; simpl.
    rewrite Hl, Hd in *. simpl. auto.
Qed.

Theorem timer_elapsed c now past : well_nested past -> elapsed (run_timer c now past) = time_inside c past.
Proof. intros H; apply (timer_inv c now past H). Qed.

Theorem reset_inside : exists past, elapsed (run_timer true 0 (Reset :: past)) <> 0.
Proof. exists [Tick 5; Enter]. vm_compute. discriminate. Qed.

(** ** Interrupts *)
Definition some_signal (n : nat) : bool := negb (Nat.eqb n 0).

Lemma exec_works p : no_interruptible p -> forall s k, hdl s = Recorder k -> (k < nframe s)%nat ->
  let '(w, n, o) := works p in
  let r := exec p s in
  hdl (fst r) = Recorder k /\ effects (fst r) = effects s ++ w /\ handled (fst r) = handled s /\ snd r = o /\
  (nframe s <= nframe (fst r))%nat /\
  (forall j, (j < nframe s)%nat -> pressed (fst r) j = if Nat.eqb j k then pressed s k || some_signal n else pressed s j).
Proof.
  assert (EQ : forall k, Nat.eqb k k = true) by (intros; apply Nat.eqb_refl).
  induction p as [n| |e| |p IHp q IHq|p IHp|p IHp|p IHp]; intros Hn s k Hk Hf; cbn [works exec].
  - simpl. repeat (split; [auto|]). intros j Hj. destruct (Nat.eqb j k) eqn:E; auto. apply Nat.eqb_eq in E; subst.
    rewrite orb_false_r; auto.
  - rewrite Hk. simpl. rewrite app_nil_r. repeat (split; [auto|]). intros j Hj.
    destruct (Nat.eqb j k) eqn:E; auto. rewrite orb_true_r; auto.
  - simpl. rewrite app_nil_r. repeat (split; [auto|]). intros j Hj. destruct (Nat.eqb j k) eqn:E; auto.
    apply Nat.eqb_eq in E; subst. rewrite orb_false_r; auto.
  - simpl. rewrite app_nil_r. repeat (split; [auto|]). intros j Hj. destruct (Nat.eqb j k) eqn:E; auto.
    apply Nat.eqb_eq in E; subst. rewrite orb_false_r; auto.
  - destruct Hn as [Hp Hq]. specialize (IHp Hp s k Hk Hf). destruct (works p) as [[w n] o].
    destruct (exec p s) as [s1 o1]; cbn [fst snd] in IHp. destruct IHp as (H1 & H2 & H3 & H4 & H5 & H6). subst o1.
    destruct o as [e|]; cbn [fst snd]; [auto 8|].
    specialize (IHq Hq s1 k H1 ltac:(lia)). destruct (works q) as [[w' n'] o'].
    destruct IHq as (G1 & G2 & G3 & G4 & G5 & G6).
    split; [auto|]. split; [rewrite G2, H2, app_assoc; reflexivity|]. split; [congruence|]. split; [auto|]. split; [lia|].
    intros j Hj. rewrite G6 by lia. rewrite !H6 by lia. rewrite EQ. destruct (Nat.eqb j k) eqn:E; auto.
    unfold some_signal. rewrite <- orb_assoc. f_equal. destruct n, n'; reflexivity.
  - specialize (IHp Hn s k Hk Hf). destruct (works p) as [[w n] o]. cbn [fst snd].
    destruct IHp as (H1 & H2 & H3 & H4 & H5 & H6). auto 8.
  - set (s1 := press _ _ _). specialize (IHp Hn s1 (nframe s) eq_refl ltac:(simpl; lia)).
    destruct (works p) as [[w n] o]. destruct (exec p s1) as [s2 o2]; cbn [fst snd] in IHp.
    destruct IHp as (H1 & H2 & H3 & H4 & H5 & H6). subst o2.
    assert (P : pressed s2 (nframe s) = some_signal n).
    { rewrite H6 by (simpl; lia). rewrite EQ. simpl. rewrite EQ. reflexivity. }
    assert (F : hdl (with_hdl s2 (hdl s)) = Recorder k /\ effects (with_hdl s2 (hdl s)) = effects s ++ w /\
       handled (with_hdl s2 (hdl s)) = handled s /\ (nframe s <= nframe (with_hdl s2 (hdl s)))%nat /\
       (forall j, (j < nframe s)%nat -> pressed (with_hdl s2 (hdl s)) j = if Nat.eqb j k then pressed s k || some_signal 0 else pressed s j)).
    { simpl. split; [auto|]. split; [auto|]. split; [auto|]. split; [simpl in H5; lia|].
      intros j Hj. rewrite H6 by (simpl; lia). simpl.
      replace (Nat.eqb j (nframe s)) with false by (symmetry; apply Nat.eqb_neq; lia).
      destruct (Nat.eqb j k) eqn:E; auto. apply Nat.eqb_eq in E; subst. rewrite orb_false_r; auto. }
    destruct F as (F1 & F2 & F3 & F4 & F5).
    assert (P' : pressed (with_hdl s2 (hdl s)) (nframe s) = some_signal n) by exact P.
    destruct o as [e|]; cbn [fst snd]; [auto 8|].
    rewrite P'. unfold some_signal in P' |- *. destruct (Nat.eqb n 0); cbn [negb fst snd]; (split; [exact F1|split; [exact F2|split; [exact F3|split; [reflexivity|split; [exact F4|exact F5]]]]]).
  - destruct Hn.
Qed.

Theorem uninterruptible_spec p s : no_interruptible p ->
  let '(w, n, o) := works p in
  let r := exec (Uninterruptible p) s in
  hdl (fst r) = hdl s /\ effects (fst r) = effects s ++ w /\ handled (fst r) = handled s /\
  snd r = match o with Some e => Some e | None => if Nat.eqb n 0 then None else Some KeyboardInterrupt end.
Proof.
  intros Hn. cbn [exec]. set (s1 := press _ _ _).
  pose proof (exec_works p Hn s1 (nframe s) eq_refl ltac:(simpl; lia)) as H.
  destruct (works p) as [[w n] o]. destruct (exec p s1) as [s2 o2]; cbn [fst snd] in H.
  destruct H as (H1 & H2 & H3 & H4 & H5 & H6). subst o2.
  assert (P' : pressed (with_hdl s2 (hdl s)) (nframe s) = some_signal n).
  { change (pressed s2 (nframe s) = some_signal n). rewrite H6 by (simpl; lia). rewrite Nat.eqb_refl. simpl. rewrite Nat.eqb_refl. reflexivity. }
  destruct o as [e|]; cbn [fst snd]; [auto|]. rewrite P'. unfold some_signal. destruct (Nat.eqb n 0); cbn [negb fst snd]; auto.
Qed.

Theorem handler_restored p s : hdl (fst (exec (Uninterruptible p) s)) = hdl s.
Proof.
  cbn [exec]. destruct (exec p _) as [s2 [e|]]; cbn [fst]; auto. destruct (pressed _ _); auto.
Qed.

Lemma works_quiet p : plain p -> fst (fst (works (quiet p))) = fst (fst (works p)) /\ snd (works (quiet p)) = snd (works p) /\ snd (fst (works (quiet p))) = 0%nat.
Proof.
  induction p as [n| |e| |p IHp q IHq|p IHp|p IHp|p IHp]; simpl; intros H; auto; try contradiction.
  - destruct H as [Hp Hq]. specialize (IHp Hp); specialize (IHq Hq).
    destruct (works (quiet p)) as [[w n] o], (works p) as [[w' n'] o'], (works (quiet q)) as [[v m] u], (works q) as [[v' m'] u'].
    simpl in *. destruct IHp as (-> & -> & ->), IHq as (-> & -> & ->). destruct o'; simpl; auto.
  - specialize (IHp H). destruct (works (quiet p)) as [[w n] o], (works p) as [[w' n'] o']. simpl in *. intuition.
Qed.
Lemma plain_ni p : plain p -> no_interruptible p.
Proof. induction p; simpl; intuition. Qed.
Lemma plain_quiet p : plain p -> plain (quiet p).
Proof. induction p; simpl; intuition. Qed.

Theorem block_not_broken p s : plain p ->
  let with_signals := exec (Uninterruptible p) s in
  let without := exec (Uninterruptible (quiet p)) s in
  effects (fst with_signals) = effects (fst without) /\ hdl (fst with_signals) = hdl (fst without) /\
  (forall e, snd without = Some e -> snd with_signals = Some e) /\
  (snd without = None -> snd with_signals = if Nat.eqb (snd (fst (works p))) 0 then None else Some KeyboardInterrupt).
Proof.
  intros Hp. pose proof (uninterruptible_spec p s (plain_ni _ Hp)) as H1.
  pose proof (uninterruptible_spec (quiet p) s (plain_ni _ (plain_quiet _ Hp))) as H2.
  destruct (works_quiet p Hp) as (W1 & W2 & W3).
  destruct (works p) as [[w n] o], (works (quiet p)) as [[w' n'] o']. simpl in W1, W2, W3. subst w' o' n'.
  destruct H1 as (A1 & A2 & A3 & A4), H2 as (B1 & B2 & B3 & B4). cbv zeta. rewrite A1, A2, A4, B1, B2, B4.
  destruct o as [e|]; simpl; (split; [auto|split; [auto|split]]); intros; try congruence.
Qed.

Definition sig0 : sigstate := {| hdl := DefaultInt; pressed := fun _ => false; nframe := 0; effects := []; handled := 0 |}.

Theorem interrupt_lost_refuted : exists p s, plain p /\ snd (fst (works p)) = 1%nat /\
  snd (exec (Uninterruptible p) s) <> Some KeyboardInterrupt.
Proof. exists (Seq Signal (RaiseB ValueError)), sig0. simpl; repeat split; auto. discriminate. Qed.

Theorem nested_refuted : exists p s,
  effects (fst (exec (Uninterruptible p) s)) <> effects (fst (exec (Uninterruptible (quiet p)) s)) /\ no_interruptible p.
Proof. exists (Seq (Uninterruptible Signal) (Work 1)), sig0. vm_compute. split; [discriminate|auto]. Qed.

Theorem interruptible_restores p s s' : exec (Interruptible p) s = (s', None) -> hdl s' = hdl s.
Proof. cbn [exec]. destruct (exec p _) as [s2 [e|]]; intros H; [discriminate|]. injection H as <-; reflexivity. Qed.

Theorem interruptible_refuted : exists p s, hdl (fst (exec (Interruptible p) s)) <> hdl s /\
  p = Signal /\ snd (exec (Interruptible p) s) = Some KeyboardInterrupt.
Proof. exists Signal, (with_hdl sig0 (Other 3)). simpl. repeat split; auto. discriminate. Qed.

(** ** setting *)
Theorem setting_restores o a v body o' :
  with_setting o a v body = (o', None) -> let o2 := fst (body (setattr o a v)) in cls o2 = cls o ->
  getattr o' a = getattr o a /\ forall b, b <> a -> getattr o' b = getattr o2 b.
Proof.
  unfold with_setting. destruct (body (setattr o a v)) as [o2 [e|]]; [discriminate|]. simpl.
  destruct (getattr o a) as [v0|] eqn:G.
  - intros H; injection H as <-. intros Hc. unfold getattr; simpl. rewrite Nat.eqb_refl. split; [auto|].
    intros b Hb. apply Nat.eqb_neq in Hb. rewrite Hb. reflexivity.
  - unfold delattr. destruct (own o2 a) eqn:E; [|discriminate]. intros H; injection H as <-.
    intros Hc. unfold getattr in *; simpl. rewrite Nat.eqb_refl. split.
    + rewrite Hc. destruct (own o a); [discriminate|auto].
    + intros b Hb. apply Nat.eqb_neq in Hb. rewrite Hb. reflexivity.
Qed.

Theorem setting_inside o a v : getattr (setattr o a v) a = Some v /\ forall b, b <> a -> getattr (setattr o a v) b = getattr o b.
Proof.
  unfold getattr; simpl. rewrite Nat.eqb_refl. split; auto. intros b Hb. apply Nat.eqb_neq in Hb. rewrite Hb; auto.
Qed.

Theorem setting_refuted : exists o a v body, getattr (fst (with_setting o a v body)) a <> getattr o a /\
  forall o, fst (body o) = o.
Proof.
  exists {| own := fun _ => Some 1; cls := fun _ => None |}, 0%nat, 2, (fun o => (o, Some ValueError)).
  simpl. split; [discriminate|auto].
Qed.

(** ** RuleManager *)
Lemma lookup_put k v d k' : lookup k' (put k v d) = if Nat.eqb k' k then Some v else lookup k' d.
Proof.
  induction d as [|[a w] d IH]; simpl.
  - destruct (Nat.eqb k' k); reflexivity.
  - destruct (Nat.eqb k a) eqn:E; simpl.
    + apply Nat.eqb_eq in E; subst. destruct (Nat.eqb k' a); reflexivity.
    + rewrite IH. destruct (Nat.eqb k' a) eqn:E'; auto. apply Nat.eqb_eq in E'; subst.
      rewrite Nat.eqb_sym, E. reflexivity.
Qed.

Lemma lookup_app k d d' : lookup k (d ++ d') = match lookup k d with Some v => Some v | None => lookup k d' end.
Proof. induction d as [|[a w] d IH]; simpl; auto. destruct (Nat.eqb k a); auto. Qed.

Lemma lookup_update kw d k : lookup k (update d kw) = match requested kw k with Some v => Some v | None => lookup k d end.
Proof.
  unfold update, requested. revert d; induction kw as [|[a v] kw IH]; intros d; simpl; auto.
  rewrite IH, lookup_app. destruct (lookup k (rev kw)); auto. rewrite lookup_put. simpl. destruct (Nat.eqb k a); auto.
Qed.

Lemma put_not_nil k v d : put k v d <> [].
Proof. destruct d as [|[a w] d]; simpl; [discriminate|]. destruct (Nat.eqb k a); discriminate. Qed.

Lemma update_nil_put kw d : d <> [] -> update d kw <> [].
Proof. unfold update; revert d; induction kw as [|[a v] kw IH]; intros d H; simpl; auto. apply IH, put_not_nil. Qed.

Lemma nth_set_nth i j l : nth j (set_nth i l) false = if Nat.eqb i j then (if (j <? length l)%nat then true else false) else nth j l false.
Proof.
  revert i j; induction l as [|b l IH]; intros i j; simpl.
  - destruct j; simpl; destruct (Nat.eqb i _); auto; destruct i; auto.
  - destruct i, j; simpl; auto. rewrite IH. destruct (Nat.eqb i j); auto.
Qed.

Lemma rcall_spec s m kw s1 o : rcall s m kw = (s1, o) ->
  trig s1 = trig s /\ nmgr s1 = nmgr s /\ (forall j, old_triggers (mgrs s1 j) = old_triggers (mgrs s j)) /\
  (o = None -> deferred (mgrs s1 m) = kw).
Proof.
  unfold rcall. destruct (forallb _ kw); intros H; injection H as <- <-; simpl; repeat split; auto; try discriminate.
  - intros j. destruct (Nat.eqb j m) eqn:E; auto. apply Nat.eqb_eq in E; subst; auto.
  - rewrite Nat.eqb_refl; auto.
Qed.

Lemma rexec_inv defaults p : forall env active s, length active = length env -> good_env env s -> no_reentry active p ->
  let s' := fst (rexec defaults p env s) in
  (nmgr s <= nmgr s')%nat /\
  (forall j m, nth_error env j = Some m -> nth j active false = true -> old_triggers (mgrs s' m) = old_triggers (mgrs s m)).
Proof.
  induction p as [|e|p IHp q IHq|p IHp|k v|k v|i kw p IHp]; intros env active s Hl Hg Hn; cbn [rexec]; simpl fst; try (split; [lia|]; auto; fail).
  - destruct Hn as [Hp Hq]. specialize (IHp env active s Hl Hg Hp). destruct (rexec defaults p env s) as [s1 [e|]]; simpl in *; auto.
    destruct IHp as [P1 P2].
    assert (Hg1 : good_env env s1) by (destruct Hg as [? H]; split; auto; intros m Hm; specialize (H m Hm); lia).
    destruct (IHq env active s1 Hl Hg1 Hq) as [Q1 Q2]. split; [lia|]. intros j m Hj Ha. rewrite (Q2 j), (P2 j); auto.
  - simpl in Hn. apply IHp; auto.
  - destruct (lookup k (trig s)); simpl; split; auto.
  - simpl; split; auto.
  - destruct Hn as [Hi Hn]. destruct (nth_error env i) as [m|] eqn:Em; [|simpl; auto].
    destruct (rcall s m kw) as [s1 [e|]] eqn:Ec; apply rcall_spec in Ec as (C1 & C2 & C3 & C4).
    { simpl. split; [lia|auto]. }
    destruct (renter defaults s1 m) as [s2 new] eqn:Ee. unfold renter in Ee. injection Ee as <- <-.
    set (s2 := Build_rstate _ _ _).
    assert (Hg2 : good_env (nmgr s1 :: env) s2).
    { destruct Hg as [Hnd Hlt]. split.
      - constructor; auto. intros Hin. specialize (Hlt _ Hin). lia.
      - intros m' [<-|Hm']; simpl; [lia|]. specialize (Hlt _ Hm'). lia. }
    assert (Hl2 : length (false :: set_nth i active) = length (nmgr s1 :: env)).
    { simpl. f_equal. rewrite <- Hl. clear. revert i; induction active as [|b l IH]; intros [|i]; simpl; auto. }
    specialize (IHp _ _ s2 Hl2 Hg2 Hn). destruct (rexec defaults p (nmgr s1 :: env) s2) as [s3 o]; simpl fst in *.
    destruct IHp as [P1 P2].
    assert (HE : nmgr (rexit s3 m) = nmgr s3 /\ mgrs (rexit s3 m) = mgrs s3).
    { unfold rexit. destruct (old_triggers (mgrs s3 m)); auto. }
    destruct HE as [HE1 HE2]. rewrite HE1, HE2. split; [simpl in P1; lia|].
    intros j m' Hj Ha.
    assert (Hij : i <> j) by (intros ->; congruence).
    assert (Hmm : m' <> m).
    { destruct Hg as [Hnd _]. intros ->. apply Hij. apply (proj1 (NoDup_nth_error env) Hnd).
      - apply nth_error_Some; congruence.
      - congruence. }
    assert (Hm1 : m' <> nmgr s1).
    { destruct Hg as [_ Hlt]. specialize (Hlt m' (nth_error_In _ _ Hj)). lia. }
    rewrite (P2 (S j) m'); auto.
    + simpl. replace (Nat.eqb m' (nmgr s1)) with false by (symmetry; apply Nat.eqb_neq; auto).
      replace (Nat.eqb m' m) with false by (symmetry; apply Nat.eqb_neq; auto). apply C3.
    + simpl. rewrite nth_set_nth. replace (Nat.eqb i j) with false by (symmetry; apply Nat.eqb_neq; auto). auto.
Qed.

Theorem rules_restored defaults p i kw env active s :
  length active = length env -> good_env env s -> no_reentry active (RWith i kw p) ->
  trig (fst (rexec defaults (RWith i kw p) env s)) = trig s.
Proof.
  intros Hl Hg [Hi Hn]. cbn [rexec]. destruct (nth_error env i) as [m|] eqn:Em; [|reflexivity].
  destruct (rcall s m kw) as [s1 [e|]] eqn:Ec; apply rcall_spec in Ec as (C1 & C2 & C3 & C4); [auto|].
  destruct (renter defaults s1 m) as [s2 new] eqn:Ee. unfold renter in Ee. injection Ee as <- <-. set (s2 := Build_rstate _ _ _).
  assert (Hm1 : m <> nmgr s1).
  { destruct Hg as [_ Hlt]. specialize (Hlt m (nth_error_In _ _ Em)). lia. }
  assert (Hg2 : good_env (nmgr s1 :: env) s2).
  { destruct Hg as [Hnd Hlt]. split.
    - constructor; auto. intros Hin. specialize (Hlt _ Hin). lia.
    - intros m' [<-|Hm']; simpl; [lia|]. specialize (Hlt _ Hm'). lia. }
  assert (Hl2 : length (false :: set_nth i active) = length (nmgr s1 :: env)).
  { simpl. f_equal. rewrite <- Hl. clear. revert i; induction active as [|b l IH]; intros [|i]; simpl; auto. }
  destruct (rexec_inv defaults p _ _ s2 Hl2 Hg2 Hn) as [P1 P2].
  destruct (rexec defaults p (nmgr s1 :: env) s2) as [s3 o]; simpl fst in *.
  assert (HO : old_triggers (mgrs s3 m) = Some (trig s)).
  { rewrite (P2 (S i) m); auto.
    - simpl. replace (Nat.eqb m (nmgr s1)) with false by (symmetry; apply Nat.eqb_neq; auto). rewrite Nat.eqb_refl. simpl. congruence.
    - simpl. rewrite nth_set_nth, Nat.eqb_refl.
      assert (i < length active)%nat by (rewrite Hl; apply nth_error_Some; congruence).
      replace (i <? length active)%nat with true by (symmetry; apply Nat.ltb_lt; auto). reflexivity. }
  unfold rexit. rewrite HO. reflexivity.
Qed.

Theorem rules_inside defaults s m kw s1 k : trig s <> [] -> rcall s m kw = (s1, None) ->
  lookup k (trig (fst (renter defaults s1 m))) = match requested kw k with Some v => Some v | None => lookup k (trig s) end.
Proof.
  intros Hne Hc. apply rcall_spec in Hc as (C1 & C2 & C3 & C4). unfold renter; simpl. rewrite (C4 eq_refl), C1.
  destruct (update (trig s) kw) eqn:E; [exfalso; apply (update_nil_put kw (trig s) Hne); auto|]. rewrite <- E. apply lookup_update.
Qed.

Theorem unknown_rule defaults s m i kw env p : nth_error env i = Some m ->
  (exists k v, In (k, v) kw /\ lookup k (trig s) = None) ->
  rexec defaults (RWith i kw p) env s = (s, Some KeyError).
Proof.
  intros Hm (k & v & Hin & Hk). cbn [rexec]. rewrite Hm. unfold rcall.
  replace (forallb _ kw) with false; auto. symmetry. apply not_true_iff_false. rewrite forallb_forall. intros H.
  specialize (H _ Hin). simpl in H. rewrite Hk in H. discriminate.
Qed.

Definition rs0 : rstate := {| trig := [(0%nat, 0); (1%nat, 1)]; mgrs := fun _ => {| deferred := []; old_triggers := None |}; nmgr := 1 |}.

Theorem rules_reentry_refuted : exists s p, good_env [0%nat] s /\ trig (fst (rexec [] (RWith 0 [(0%nat, 1)] p) [0%nat] s)) <> trig s /\
  p = RWith 1 [(0%nat, 0)] RNop.
Proof.
  exists rs0, (RWith 1 [(0%nat, 0)] RNop). split; [|split; [vm_compute; discriminate|reflexivity]].
  split; [repeat constructor; auto|]. intros m [<-|[]]; simpl; lia.
Qed.
