(** Proofs for C42: the caches. *)
From Verif Require Import Base Algebra Ofield CritModel CritSpec.

Section Caches.
Context {K : ofield} (strict : bool) (n : nat) (N1 : 1 <= n).
Notation array := (list K).

Fixpoint component_rect' (P : component -> Prop) (H1 : forall id, P (El id)) (H2 : forall l, Forall P l -> P (Cr l)) (c : component) : P c :=
  match c with
  | El id => H1 id
  | Cr l => H2 l ((fix go l : Forall P l := match l with [] => Forall_nil P | c :: l => @Forall_cons _ P c l (component_rect' P H1 H2 c) (go l) end) l)
  end.

Implicit Types (s : state K) (e : element K).
Definition accepts (e : element K) : Prop := forall x, length x = n -> exists y, o_call (e_op e) x = Ok y.
Record inv (s : state K) (i : ideal K) : Prop := {
  v_elements : elements s = i_elements i;
  v_handles : handles s = i_handles i;
  v_arrays : map (read s) (user s) = i_arrays i;
  v_user : Forall (fun r => r < length (arrays s)) (user s);
  v_nodup : NoDup (user s);
  v_len : Forall (fun v => length v = n) (arrays s);
  v_ok : Forall accepts (elements s);
  v_cache : forall id l, last_x (caches s id) = Some l -> l < length (arrays s) /\ ~ In l (user s) /\
            exists e ox, nth_error (elements s) id = Some e /\ o_call (e_op e) (read s l) = Ok ox /\ last_ox (caches s id) = Some ox }.

Lemma all_equal_ok (x y : array) : length x = length y -> all_equal strict x y = Ok true -> x = y.
Proof.
  intros L. unfold all_equal. rewrite L, Nat.eqb_refl. intros E. injection E as E. revert y L E. induction x as [|a x IH]; intros [|b y] L E; try discriminate; [reflexivity|].
  cbn in E. apply andb_true_iff in E. destruct E as [E1 E2]. apply eqb_ok in E1. cbn in L. f_equal; [exact E1|]. apply IH; [lia|exact E2].
Qed.
Lemma all_equal_same (x y : array) : length x = length y -> exists b, all_equal strict x y = Ok b.
Proof. intros L. unfold all_equal. rewrite L, Nat.eqb_refl. eauto. Qed.
Lemma read_len s i r : inv s i -> r < length (arrays s) -> length (read s r) = n.
Proof. intros I L. pose proof (v_len _ _ I) as F. rewrite Forall_forall in F. apply F. unfold read. apply nth_In. exact L. Qed.
Lemma read_app s v r : r < length (arrays s) -> nth r (arrays s ++ [v]) [] = read s r.
Proof. intros L. unfold read. apply app_nth1. exact L. Qed.

Lemma store_ok s i id r e : inv s i -> nth_error (elements s) id = Some e -> In r (user s) ->
  exists s', store_x s id r e = (s', Ok tt) /\ inv s' i /\ user s' = user s /\ read s' r = read s r /\ residual s' id e = misfit e (read s r).
Proof.
  intros I E Hr. pose proof (v_user _ _ I) as U. assert (Lr : r < length (arrays s)) by (rewrite Forall_forall in U; apply U, Hr).
  assert (Le : accepts e) by (pose proof (v_ok _ _ I) as F; rewrite Forall_forall in F; apply F; eapply nth_error_In, E).
  destruct (Le (read s r) (read_len s i r I Lr)) as [ox Eo].
  assert (Q : forall s2 : state K, arrays s2 = arrays s ++ [read s r] -> read s2 r = read s r) by (intros s2 Q; unfold read; rewrite Q; apply app_nth1, Lr).
  unfold store_x. cbn [alloc]. match goal with |- context [o_call _ (read ?x r)] => rewrite (Q x eq_refl) end. rewrite Eo. clear Q.
  eexists. split; [reflexivity|]. split; [|split; [|split]].
  - constructor; cbn [elements handles arrays user caches set_cache].
    + apply (v_elements _ _ I).
    + apply (v_handles _ _ I).
    + rewrite <- (v_arrays _ _ I). apply map_ext_in. intros q Hq. unfold read. cbn [arrays set_cache]. apply app_nth1. rewrite Forall_forall in U. apply U, Hq.
    + eapply Forall_impl; [|exact U]. intros q Hq. rewrite app_length. cbn beta in Hq. lia.
    + apply (v_nodup _ _ I).
    + apply Forall_app. split; [apply (v_len _ _ I)|]. constructor; [|constructor]. apply (read_len s i r I Lr).
    + apply (v_ok _ _ I).
    + intros id' l. destruct (Nat.eqb id' id) eqn:Q.
      * apply Nat.eqb_eq in Q. subst id'. rewrite Nat.eqb_refl. cbn [last_x last_ox]. intros X. injection X as <-. rewrite app_length. cbn [length]. split; [lia|]. split.
        { intros F. rewrite Forall_forall in U. specialize (U _ F). lia. }
        exists e, ox. split; [exact E|]. split; [|reflexivity]. unfold read. cbn [arrays set_cache]. rewrite app_nth2, Nat.sub_diag by lia. cbn. exact Eo.
      * intros X. destruct (v_cache _ _ I id' l X) as (Ll & Nl & e' & ox' & E' & Eo' & Ec). rewrite app_length. split; [lia|]. split; [exact Nl|]. exists e', ox'. split; [exact E'|]. split; [|exact Ec].
        unfold read. cbn [arrays set_cache]. rewrite app_nth1 by exact Ll. exact Eo'.
  - reflexivity.
  - unfold read at 1. cbn [arrays set_cache]. apply app_nth1, Lr.
  - unfold residual, misfit. cbn [caches set_cache]. rewrite !Nat.eqb_refl. cbn [last_ox]. rewrite Eo. reflexivity.
Qed.
Lemma refresh_ok s i id r e : inv s i -> nth_error (elements s) id = Some e -> In r (user s) ->
  exists s', refresh strict s id r e = (s', Ok tt) /\ inv s' i /\ user s' = user s /\ read s' r = read s r /\ residual s' id e = misfit e (read s r).
Proof.
  intros I E Hr. assert (Lr : r < length (arrays s)) by (pose proof (v_user _ _ I) as F; rewrite Forall_forall in F; apply F, Hr).
  unfold refresh, is_last. destruct (last_x (caches s id)) as [l|] eqn:El.
  - destruct (v_cache _ _ I id l El) as (Ll & Nl & e' & ox & E' & Eo & Ec). assert (e' = e) by congruence. subst e'.
    destruct (all_equal_same (read s r) (read s l)) as [b Eb]; [rewrite (read_len s i r I Lr), (read_len s i l I Ll); reflexivity|]. rewrite Eb. destruct b; [|apply (store_ok s i); assumption].
    exists s. apply all_equal_ok in Eb; [|rewrite (read_len s i r I Lr), (read_len s i l I Ll); reflexivity]. split; [reflexivity|]. split; [exact I|]. split; [reflexivity|]. split; [reflexivity|].
    unfold residual, misfit. rewrite Ec, Eb, Eo. reflexivity.
  - rewrite (read_len s i r I Lr). destruct (Nat.eqb n 0) eqn:Z; [apply Nat.eqb_eq in Z; lia|]. apply (store_ok s i); assumption.
Qed.
Lemma element_call_ok s i id r : inv s i -> In r (user s) ->
  exists s', element_call strict s id r = (s', value (elements s) (El id) (read s r)) /\ inv s' i /\ user s' = user s /\ read s' r = read s r /\ elements s' = elements s.
Proof.
  intros I Hr. unfold element_call. cbn [value]. destruct (nth_error (elements s) id) as [e|] eqn:E; [|exists s; auto].
  destruct (refresh_ok s i id r e I E Hr) as (s' & -> & I' & U & R & Q). exists s'. rewrite Q. cbn [rbind]. split; [reflexivity|]. split; [exact I'|]. split; [exact U|]. split; [exact R|]. rewrite (v_elements _ _ I), (v_elements _ _ I'). reflexivity.
Qed.
Lemma element_diff_ok s i id r : inv s i -> In r (user s) ->
  exists s', element_diff strict s id r = (s', gradient (elements s) (El id) (read s r)) /\ inv s' i /\ user s' = user s /\ read s' r = read s r /\ elements s' = elements s.
Proof.
  intros I Hr. unfold element_diff. cbn [gradient]. destruct (nth_error (elements s) id) as [e|] eqn:E; [|exists s; auto].
  destruct (refresh_ok s i id r e I E Hr) as (s' & -> & I' & U & R & Q). exists s'. rewrite Q. cbn [rbind]. split; [reflexivity|]. split; [exact I'|]. split; [exact U|]. split; [exact R|]. rewrite (v_elements _ _ I), (v_elements _ _ I'). reflexivity.
Qed.
Lemma call_ok i r c : forall s, inv s i -> In r (user s) ->
  exists s', component_call strict s c r = (s', value (elements s) c (read s r)) /\ inv s' i /\ user s' = user s /\ read s' r = read s r /\ elements s' = elements s.
Proof.
  induction c as [id|l IH] using component_rect'; intros s I Hr; [apply element_call_ok; assumption|].
  cbn [component_call value]. generalize (r0 : K). revert s I Hr. induction IH as [|c l Hc Hl IHl]; intros s I Hr acc; [exists s; auto|].
  destruct (Hc s I Hr) as (s1 & E1 & I1 & U1 & R1 & El1). rewrite E1. destruct (value (elements s) c (read s r)) as [v|x]; cbn [rbind].
  - destruct (IHl s1 I1 ltac:(rewrite U1; exact Hr) (radd acc v)) as (s2 & E2 & I2 & U2 & R2 & El2). exists s2. rewrite R1, El1 in E2. split; [exact E2|]. split; [exact I2|]. repeat split; congruence.
  - exists s1. auto.
Qed.
Lemma diff_ok i r c : forall s, inv s i -> In r (user s) ->
  exists s', component_diff strict s c r = (s', gradient (elements s) c (read s r)) /\ inv s' i /\ user s' = user s /\ read s' r = read s r /\ elements s' = elements s.
Proof.
  induction c as [id|l IH] using component_rect'; intros s I Hr; [apply element_diff_ok; assumption|].
  cbn [component_diff gradient]. generalize (@None array). revert s I Hr. induction IH as [|c l Hc Hl IHl]; intros s I Hr acc; [exists s; auto|].
  destruct (Hc s I Hr) as (s1 & E1 & I1 & U1 & R1 & El1). rewrite E1. destruct (gradient (elements s) c (read s r)) as [v|x]; cbn [rbind]; [|exists s1; auto].
  destruct (match acc with Some w => plus w v | None => Ok v end) as [v'|x]; cbn [rbind]; [|exists s1; auto].
  destruct (IHl s1 I1 ltac:(rewrite U1; exact Hr) (Some v')) as (s2 & E2 & I2 & U2 & R2 & El2). exists s2. rewrite R1, El1 in E2. split; [exact E2|]. split; [exact I2|]. repeat split; congruence.
Qed.

Lemma scale_ext c a : forall es, Forall accepts es -> exists l, fst (scale c es a) = es ++ l /\ Forall accepts (es ++ l).
Proof.
  induction a as [id|l IH] using component_rect'; intros es F; cbn [scale].
  - destruct (nth_error es id) as [e|] eqn:E; cbn [fst]; [|exists []; rewrite app_nil_r; auto]. eexists. split; [reflexivity|]. apply Forall_app. split; [exact F|]. constructor; [|constructor].
    intros x Hx. cbn [e_op]. rewrite Forall_forall in F. apply (F e); [eapply nth_error_In, E|exact Hx].
  - assert (exists m, fst ((fix go es l := match l with [] => (es, []) | a :: l => let '(es, a) := scale c es a in let '(es, l) := go es l in (es, a :: l) end) es l) = es ++ m /\ Forall accepts (es ++ m)) as (m & E & G).
    { revert es F. induction IH as [|a l Ha Hl IHl]; intros es F; [exists []; cbn; rewrite app_nil_r; auto|]. destruct (Ha es F) as (m & E & G). destruct (scale c es a) as [es1 a1]. cbn [fst] in E. subst es1.
      destruct (IHl _ G) as (m' & E' & G'). destruct (_ (es ++ m) l) as [es2 l2]. cbn [fst] in *. subst es2. exists (m ++ m'). rewrite app_assoc. auto. }
    destruct (_ es l) as [es2 l2]. cbn [fst] in *. subst es2. exists m. auto.
Qed.
Lemma inv_push s i es c : inv s i -> (exists l, es = elements s ++ l) -> Forall accepts es -> inv (push s es c) (Ideal (i_arrays i) es (handles s ++ [c])).
Proof.
  intros I [l ->] F. constructor; cbn [push elements handles arrays user caches i_elements i_handles i_arrays].
  - reflexivity.
  - reflexivity.
  - apply (v_arrays _ _ I).
  - apply (v_user _ _ I).
  - apply (v_nodup _ _ I).
  - apply (v_len _ _ I).
  - exact F.
  - intros id m X. destruct (v_cache _ _ I id m X) as (Ll & Nl & e & ox & E & Eo & Ec). split; [exact Ll|]. split; [exact Nl|]. exists e, ox. split; [|auto]. rewrite nth_error_app1; [exact E|]. apply nth_error_Some. congruence.
Qed.
Lemma set_nth_length (l : list array) i v : length (set_nth l i v) = length l.
Proof. revert i. induction l as [|a l IH]; intros [|i]; cbn; auto. Qed.
Lemma set_nth_nth (l : list array) i v j : nth j (set_nth l i v) [] = if Nat.eqb j i then if Nat.ltb i (length l) then v else [] else nth j l [].
Proof.
  revert i j. induction l as [|a l IH]; intros i j.
  - cbn [set_nth]. rewrite !(nth_overflow []) by (cbn; lia). cbn [length Nat.ltb]. destruct (Nat.eqb j i); reflexivity.
  - destruct i as [|i], j as [|j]; cbn [set_nth nth]; try reflexivity. rewrite IH. cbn [Nat.eqb length]. change (Nat.ltb (S i) (S (length l))) with (Nat.ltb i (length l)). reflexivity.
Qed.
Lemma set_nth_forall (P : array -> Prop) (l : list array) i v : Forall P l -> P v -> Forall P (set_nth l i v).
Proof. intros F Pv. revert i. induction F as [|a l Ha Hl IH]; intros [|i]; cbn; constructor; auto. Qed.
Lemma map_set_nth (f : nat -> array) (l : list nat) i r v : NoDup l -> nth_error l i = Some r -> map (fun q => if Nat.eqb q r then v else f q) l = set_nth (map f l) i v.
Proof.
  intros N. revert i. induction N as [|a l Ha N IH]; intros [|i] E; try discriminate; cbn [map set_nth] in *; cbn [nth_error] in E.
  - injection E as ->. rewrite Nat.eqb_refl. f_equal. apply map_ext_in. intros q Hq. destruct (Nat.eqb q r) eqn:Q; [|reflexivity]. apply Nat.eqb_eq in Q. subst. contradiction.
  - rewrite (IH i E). destruct (Nat.eqb a r) eqn:Q; [|reflexivity]. apply Nat.eqb_eq in Q. subst. exfalso. apply Ha. eapply nth_error_In, E.
Qed.
Lemma NoDup_app_single (l : list nat) x : NoDup l -> ~ In x l -> NoDup (l ++ [x]).
Proof. intros N H. apply NoDup_rev in N. rewrite <- (rev_involutive (l ++ [x])). apply NoDup_rev. rewrite rev_app_distr. cbn. constructor; [rewrite <- in_rev; exact H|exact N]. Qed.
Lemma act_ok s i (e : event K) : inv s i -> proper n e -> inv (fst (act strict s e)) (fst (ideal_act i e)) /\ snd (act strict s e) = snd (ideal_act i e).
Proof.
  intros I P. pose proof (v_elements _ _ I) as Ee. pose proof (v_handles _ _ I) as Eh. pose proof (v_user _ _ I) as U. destruct e as [v|j v|N o data|c j|j k|j|j r|j r]; cbn [act ideal_act proper] in *.
  - split; [|reflexivity]. cbn [alloc fst]. constructor; cbn [elements handles arrays user caches i_elements i_handles i_arrays].
    + exact Ee.
    + exact Eh.
    + rewrite map_app, <- (v_arrays _ _ I). f_equal.
      * apply map_ext_in. intros q Hq. unfold read. cbn [arrays set_cache]. apply app_nth1. rewrite Forall_forall in U. apply U, Hq.
      * cbn. unfold read. cbn [arrays set_cache]. rewrite app_nth2, Nat.sub_diag by lia. reflexivity.
    + apply Forall_app. rewrite app_length. cbn [length]. split; [eapply Forall_impl; [|exact U]; cbn; intros; lia|]. constructor; [lia|constructor].
    + apply NoDup_app_single. exact (v_nodup _ _ I). intros F. rewrite Forall_forall in U. specialize (U _ F). lia.
    + apply Forall_app. split; [apply (v_len _ _ I)|auto].
    + apply (v_ok _ _ I).
    + intros id l X. destruct (v_cache _ _ I id l X) as (Ll & Nl & e & ox & E & Eo & Ec). rewrite app_length. split; [lia|]. split.
      { intros F. apply in_app_or in F. destruct F as [F|[F|[]]]; [auto|lia]. }
      exists e, ox. split; [exact E|]. split; [|exact Ec]. unfold read. cbn [arrays set_cache]. rewrite app_nth1 by exact Ll. exact Eo.
  - assert (length (i_arrays i) = length (user s)) as L by (rewrite <- (v_arrays _ _ I), map_length; reflexivity). rewrite L. destruct (nth_error (user s) j) as [r|] eqn:E.
    + assert (j < length (user s)) as Lj by (apply nth_error_Some; congruence). rewrite (proj2 (Nat.ltb_lt _ _) Lj). cbn [fst snd]. split; [|reflexivity].
      assert (r < length (arrays s)) as Lr by (rewrite Forall_forall in U; apply U; eapply nth_error_In, E).
      constructor; cbn [elements handles arrays user caches i_elements i_handles i_arrays].
      * exact Ee.
      * exact Eh.
      * rewrite <- (v_arrays _ _ I). rewrite <- (map_set_nth (read s) (user s) j r v (v_nodup _ _ I) E). apply map_ext. intros q. unfold read. cbn [arrays set_cache]. rewrite set_nth_nth, (proj2 (Nat.ltb_lt _ _) Lr). reflexivity.
      * rewrite set_nth_length. exact U.
      * apply (v_nodup _ _ I).
      * apply set_nth_forall; [apply (v_len _ _ I)|exact P].
      * apply (v_ok _ _ I).
      * intros id l X. destruct (v_cache _ _ I id l X) as (Ll & Nl & e & ox & E' & Eo & Ec). rewrite set_nth_length. split; [exact Ll|]. split; [exact Nl|]. exists e, ox. split; [exact E'|]. split; [|exact Ec].
        unfold read. cbn [arrays set_cache]. rewrite set_nth_nth. destruct (Nat.eqb l r) eqn:Q; [|exact Eo]. apply Nat.eqb_eq in Q. subst. exfalso. apply Nl. eapply nth_error_In, E.
    + apply nth_error_None in E. rewrite (proj2 (Nat.ltb_ge _ _) E). auto.
  - destruct (make_element N o data) as [e|x] eqn:E; cbn [fst snd]; [|auto]. rewrite <- Ee, <- Eh. split; [|reflexivity]. apply inv_push; [exact I|eauto|]. apply Forall_app. split; [apply (v_ok _ _ I)|]. constructor; [|constructor].
    assert (e_op e = o) as Eo. { unfold make_element in E. destruct data as [[sh d]|]; [|injection E as <-; reflexivity]. destruct (data_ok sh (o_out o)) as [[]|]; cbn in E; try discriminate. injection E as <-. reflexivity. }
    unfold accepts. rewrite Eo. exact P.
  - rewrite <- Eh. destruct (nth_error (handles s) j) as [a|]; cbn [fst snd]; [|auto]. rewrite <- Ee. destruct (scale_ext c a (elements s) (v_ok _ _ I)) as (l & E & F). destruct (scale c (elements s) a) as [es b]. cbn [fst snd] in *. split; [|reflexivity]. subst es.
    apply inv_push; eauto.
  - rewrite <- Eh, <- Ee. destruct (nth_error (handles s) j) as [a|]; cbn [fst snd]; [|auto]. destruct (nth_error (handles s) k) as [b|]; cbn [fst snd]; [|auto]. destruct (add (elements s) a b) as [c|x]; cbn [fst snd]; [|auto]. split; [|reflexivity].
    apply inv_push; [exact I|exists []; rewrite app_nil_r; reflexivity|apply (v_ok _ _ I)].
  - rewrite <- Eh, <- Ee. destruct (nth_error (handles s) j) as [a|]; cbn [fst snd]; [|auto]. destruct (add_zero (elements s) a) as [c|x]; cbn [fst snd]; [|auto]. split; [|reflexivity].
    apply inv_push; [exact I|exists []; rewrite app_nil_r; reflexivity|apply (v_ok _ _ I)].
  - rewrite <- Eh, <- Ee. destruct (nth_error (handles s) j) as [a|]; cbn [fst snd]; [|auto]. rewrite <- (v_arrays _ _ I), nth_error_map. destruct (nth_error (user s) r) as [q|] eqn:Eq; cbn [option_map fst snd]; [|auto].
    destruct (call_ok i q a s I ltac:(eapply nth_error_In, Eq)) as (s' & -> & I' & _). auto.
  - rewrite <- Eh, <- Ee. destruct (nth_error (handles s) j) as [a|]; cbn [fst snd]; [|auto]. rewrite <- (v_arrays _ _ I), nth_error_map. destruct (nth_error (user s) r) as [q|] eqn:Eq; cbn [option_map fst snd]; [|auto].
    destruct (diff_ok i q a s I ltac:(eapply nth_error_In, Eq)) as (s' & -> & I' & _). auto.
Qed.
Lemma run_ok l : forall s i, inv s i -> Forall (proper n) l -> run strict s l = ideal_run i l.
Proof.
  induction l as [|e l IH]; intros s i I F; [reflexivity|]. inversion F as [|? ? P F']; subst. destruct (act_ok s i e I P) as [I' E]. cbn [run ideal_run]. destruct (act strict s e) as [s' o], (ideal_act i e) as [i' o']. cbn [fst snd] in *. subst. f_equal. apply IH; assumption.
Qed.
Lemma inv_start : inv start ideal_start.
Proof. constructor; cbn; auto using Forall_nil, NoDup_nil. discriminate. Qed.
End Caches.
