From Verif Require Import Base MemoryModel MemorySpec.
Require Import ZifyBool.
Open Scope Z_scope.
Arguments zprod : simpl never.
Arguments Z.mul : simpl never.

(** ** ifirst, insert, pop *)
Lemma ifirst_some {A} (f : A -> bool) l i : ifirst f l = Some i ->
  exists x, nth_error l i = Some x /\ f x = true /\ forall j y, (j < i)%nat -> nth_error l j = Some y -> f y = false.
Proof.
  revert i; induction l as [|a l IH]; cbn; intros i H; [discriminate|].
  destruct (f a) eqn:Fa.
  - injection H as <-. exists a. repeat split; auto. intros; lia.
  - destruct (ifirst f l) as [k|]; [|discriminate]. injection H as <-.
    destruct (IH k eq_refl) as (x & H1 & H2 & H3). exists x. repeat split; auto.
    intros [|j] y Hj; cbn; [congruence|]. apply H3. lia.
Qed.

Lemma ifirst_none {A} (f : A -> bool) l : ifirst f l = None -> Forall (fun x => f x = false) l.
Proof.
  induction l as [|a l IH]; cbn; intros H; [constructor|].
  destruct (f a) eqn:Fa; [discriminate|]. destruct (ifirst f l); [discriminate|]. constructor; auto.
Qed.

Lemma nth_split {A} (l : list A) i x : nth_error l i = Some x -> l = firstn i l ++ x :: skipn (S i) l.
Proof.
  revert i; induction l as [|a l IH]; intros [|i] H; cbn in H; try discriminate.
  - injection H as ->. reflexivity.
  - cbn [firstn app skipn]. f_equal. apply IH. exact H.
Qed.

Lemma nth_pop_perm {A} (l : list A) i x : nth_error l i = Some x -> Permutation l (x :: pop i l).
Proof.
  intros H. unfold pop. rewrite (nth_split l i x H) at 1. symmetry. apply Permutation_middle.
Qed.

Lemma insert_perm {A} i (x : A) l : Permutation (insert i x l) (x :: l).
Proof. unfold insert. rewrite <- Permutation_middle. rewrite firstn_skipn. reflexivity. Qed.

Lemma flat_nbytes v : nbytes (flat v) = nbytes v.
Proof. unfold flat. destruct (a_contig v); [|reflexivity]. unfold nbytes at 1. cbn. unfold zprod; cbn. lia. Qed.
Lemma flat_addr v : a_addr (flat v) = a_addr v.
Proof. unfold flat. destruct (a_contig v); reflexivity. Qed.
Lemma flat_lo v : a_lo (flat v) = a_lo v.
Proof. unfold flat. destruct (a_contig v); reflexivity. Qed.
Lemma flat_hi v : a_hi (flat v) = a_hi v.
Proof. unfold flat. destruct (a_contig v); reflexivity. Qed.
Lemma flat_contig v : a_contig (flat v) = a_contig v.
Proof. unfold flat. destruct (a_contig v) eqn:E; [reflexivity|exact E]. Qed.

Lemma flat_flat v : flat (flat v) = flat v.
Proof.
  unfold flat at 1. rewrite flat_contig. destruct (a_contig v) eqn:E; [|reflexivity].
  rewrite flat_nbytes, flat_addr, flat_lo, flat_hi. unfold flat. rewrite E. reflexivity.
Qed.

(** ** add and remove *)
Lemma add_ok v p q : add v p = Ok q ->
  Permutation q (flat v :: p) /\ ~ In (a_addr v) (map a_addr p)
  /\ (StronglySorted Z.le (map nbytes p) -> StronglySorted Z.le (map nbytes q)).
Proof.
  unfold add. destruct (existsb _ p) eqn:E; [discriminate|]. intros H; injection H as <-.
  split; [apply insert_perm|]. split.
  - intros Hin. apply in_map_iff in Hin as (b & Hb & Hin).
    assert (existsb (fun b => a_addr b =? a_addr (flat v)) p = true) as C; [|congruence].
    apply existsb_exists. exists b. split; auto. rewrite flat_addr. lia.
  - rewrite flat_nbytes. destruct (ifirst (fun x => nbytes v <=? nbytes x) p) as [i|] eqn:F.
    + apply ifirst_some in F as (x & Hx & Hv & Hlt). intros Hs.
      unfold insert. rewrite map_app. cbn [map]. rewrite flat_nbytes.
      revert p E i Hx Hlt Hs. induction p as [|a p IH]; intros E i Hx Hlt Hs; [destruct i; discriminate|].
      destruct i as [|i].
      * cbn in Hx. injection Hx as ->. cbn [firstn skipn map app]. constructor; [exact Hs|].
        cbn [map] in Hs. inversion Hs as [|? ? Hs' Hf]; subst. constructor; [lia|].
        eapply Forall_impl; [|exact Hf]. cbn. intros. lia.
      * cbn [firstn skipn map app]. cbn [map] in Hs. inversion Hs as [|? ? Hs' Hf]; subst.
        cbn in E. apply orb_false_iff in E as [_ E].
        constructor.
        { apply IH; auto. intros j y Hj Hy. apply (Hlt (S j)); [lia|exact Hy]. }
        { assert (nbytes a < nbytes v) by (specialize (Hlt O a ltac:(lia) eq_refl); lia).
          rewrite <- (firstn_skipn i p), map_app in Hf.
          apply Forall_app in Hf as [Hf1 Hf2]. apply Forall_app; split; [exact Hf1|].
          constructor; [lia|exact Hf2]. }
    + apply ifirst_none in F. intros Hs. unfold insert. rewrite firstn_all, skipn_all.
      rewrite map_app. cbn [map]. rewrite flat_nbytes.
      clear E. induction p as [|a p IH]; cbn [map app]; [repeat constructor|].
      inversion F as [|? ? Fa Fp]; subst. cbn [map] in Hs. inversion Hs as [|? ? Hs' Hf]; subst.
      constructor; [auto|]. apply Forall_app; split; [exact Hf|]. repeat constructor. lia.
Qed.

Lemma pop_incl {A} i (l : list A) x : In x (pop i l) -> In x l.
Proof.
  unfold pop. intros H. apply in_app_or in H as [H|H].
  - rewrite <- (firstn_skipn i l). apply in_or_app. auto.
  - rewrite <- (firstn_skipn (S i) l). apply in_or_app. auto.
Qed.

Lemma sorted_pop i (l : list Z) : StronglySorted Z.le l -> StronglySorted Z.le (pop i l).
Proof.
  revert i; induction l as [|a l IH]; intros i H; [destruct i; constructor|].
  inversion H as [|? ? Hs Hf]; subst. destruct i; [exact Hs|].
  change (pop (S i) (a :: l)) with (a :: pop i l).
  constructor; [apply IH; exact Hs|]. rewrite Forall_forall in Hf |- *. intros x Hx. apply Hf. eapply pop_incl; eauto.
Qed.

Lemma map_pop {A B} (f : A -> B) i l : map f (pop i l) = pop i (map f l).
Proof. unfold pop. rewrite map_app, firstn_map, skipn_map. reflexivity. Qed.

Lemma remove_ok v p q : remove v p = Ok q ->
  exists b, In b p /\ a_addr b = a_addr v /\ Permutation p (b :: q)
  /\ (StronglySorted Z.le (map nbytes p) -> StronglySorted Z.le (map nbytes q)).
Proof.
  unfold remove. destruct (ifirst _ p) as [i|] eqn:E; [|discriminate]. intros H; injection H as <-.
  apply ifirst_some in E as (x & Hx & Ha & _). exists x. repeat split.
  - eapply nth_error_In; eauto.
  - lia.
  - apply nth_pop_perm; assumption.
  - intros. rewrite map_pop. apply sorted_pop; assumption.
Qed.

Lemma extract_cases c r m p :
  (exists i v, ifirst (fun b => iscompatible c b r (Some (tol_num c, tol_den c))) p = Some i
     /\ nth_error p i = Some v /\ iscompatible c v r (Some (tol_num c, tol_den c)) = true
     /\ extract c r m p = (v, pop i p, false))
  \/ (Forall (fun b => iscompatible c b r (Some (tol_num c, tol_den c)) = false) p
      /\ extract c r m p = (empty c (r_shape r) (r_item r) m, p, true)).
Proof.
  unfold extract. destruct (ifirst _ p) as [i|] eqn:E.
  - left. pose proof (ifirst_some _ _ _ E) as (v & Hv & Hc & _). exists i, v. rewrite Hv. auto.
  - right. split; [apply ifirst_none; exact E|reflexivity].
Qed.

(** ** pool invariant *)
Lemma pool_inv_nil : pool_inv [].
Proof. repeat constructor. Qed.

Lemma add_inv v p q : pool_inv p -> add v p = Ok q -> pool_inv q.
Proof.
  intros (H1 & H2 & H3) H. apply add_ok in H as (HP & HN & HS). repeat split.
  - apply (Permutation_NoDup (l := map a_addr (flat v :: p))).
    + symmetry. apply Permutation_map. exact HP.
    + cbn. constructor; [rewrite flat_addr; exact HN|exact H1].
  - apply HS; exact H2.
  - eapply Permutation_Forall; [symmetry; exact HP|]. constructor; [apply flat_flat|exact H3].
Qed.

Lemma perm_cons_inv p b q : pool_inv p -> Permutation p (b :: q) ->
  (StronglySorted Z.le (map nbytes p) -> StronglySorted Z.le (map nbytes q)) -> pool_inv q.
Proof.
  intros (H1 & H2 & H3) HP HS. repeat split; [|auto|].
  - apply (Permutation_NoDup (Permutation_map a_addr HP)) in H1. cbn in H1. inversion H1; assumption.
  - apply (Permutation_Forall HP) in H3. inversion H3; assumption.
Qed.

Lemma remove_inv v p q : pool_inv p -> remove v p = Ok q -> pool_inv q.
Proof. intros Hi H. apply remove_ok in H as (b & _ & _ & HP & HS). eapply perm_cons_inv; eauto. Qed.

Lemma pop_inv p i v : pool_inv p -> nth_error p i = Some v -> pool_inv (pop i p).
Proof.
  intros Hi Hv. eapply perm_cons_inv; [exact Hi|apply nth_pop_perm; exact Hv|].
  intros. rewrite map_pop. apply sorted_pop; assumption.
Qed.

Lemma extract_inv c r m p v q fr : pool_inv p -> extract c r m p = (v, q, fr) -> pool_inv q.
Proof.
  intros Hi H. destruct (extract_cases c r m p) as [(i & v' & _ & Hv & _ & E)|[_ E]]; rewrite E in H; injection H as <- <- <-.
  - eapply pop_inv; eauto.
  - exact Hi.
Qed.

Lemma step_inv c s o : pool_inv (s_pool s) -> pool_inv (s_pool (step c s o)).
Proof.
  intros Hi. destruct o as [v|v|r m|i|]; cbn [step].
  - destruct (add v (s_pool s)) eqn:E; [|exact Hi]. cbn. eapply add_inv; eauto.
  - destruct (remove v (s_pool s)) eqn:E; [|exact Hi]. cbn. eapply remove_inv; eauto.
  - destruct (extract c r m (s_pool s)) as [[v q] fr] eqn:E. cbn. eapply extract_inv; eauto.
  - destruct (nth_error (s_out s) i); [|exact Hi]. destruct (add a (s_pool s)) eqn:E; [|exact Hi].
    cbn. eapply add_inv; eauto.
  - apply pool_inv_nil.
Qed.

Lemma run_inv c ops s : pool_inv (s_pool s) -> pool_inv (s_pool (run c ops s)).
Proof. revert s; induction ops; cbn; intros s H; [exact H|]. apply IHops, step_inv, H. Qed.

(** ** disjointness *)
Lemma disjoint_sym a b : disjoint a b -> disjoint b a.
Proof. unfold disjoint, disjoint_spans. tauto. Qed.

Lemma all_disjoint_perm l l' : Permutation l l' -> all_disjoint l -> all_disjoint l'.
Proof.
  unfold all_disjoint. intros HP. induction HP; intros H; auto.
  - inversion H; subst. constructor; [|auto]. eapply Permutation_Forall; eauto.
  - inversion H as [|? ? Hf H']; subst. inversion H' as [|? ? Hf' H'']; subst.
    inversion Hf; subst. constructor; [constructor; auto using disjoint_sym|]. constructor; auto.
Qed.

Lemma all_disjoint_cons a l : all_disjoint (a :: l) <-> Forall (disjoint a) l /\ all_disjoint l.
Proof. split; [intros H; inversion H; auto|intros [? ?]; constructor; auto]. Qed.

Lemma zprod_nonneg l : Forall (fun d => 0 <= d) l -> 0 <= zprod l.
Proof. induction 1; unfold zprod in *; cbn; [lia|]. apply Z.mul_nonneg_nonneg; assumption. Qed.

Lemma empty_wf c r m : wf_config c -> wf_req r -> wf_arr (empty c (r_shape r) (r_item r) m)
  /\ a_lo (empty c (r_shape r) (r_item r) m) >= fst (empty_block c (r_shape r) (r_item r) m)
  /\ a_hi (empty c (r_shape r) (r_item r) m) <= snd (empty_block c (r_shape r) (r_item r) m).
Proof.
  unfold wf_config, wf_req, wf_arr, empty, empty_block. intros Hc [Hi Hs]. apply zprod_nonneg in Hs.
  destruct (Z.eqb_spec (zprod (r_shape r) * r_item r) 0) as [E|E]; unfold nbytes; cbn.
  - rewrite E. lia.
  - pose proof (Z.mod_pos_bound m (alignment c) Hc). 
    assert (0 <= zprod (r_shape r) * r_item r) by (apply Z.mul_nonneg_nonneg; lia). lia.
Qed.

Definition Live (s : state) : Prop :=
  all_disjoint (s_pool s ++ s_out s) /\ Forall wf_arr (s_pool s ++ s_out s).

Lemma flat_wf v : wf_arr v -> wf_arr (flat v).
Proof.
  unfold wf_arr. rewrite flat_nbytes, flat_addr, flat_lo, flat_hi, flat_contig. auto.
Qed.
Lemma flat_disjoint v b : disjoint (flat v) b <-> disjoint v b.
Proof. unfold disjoint. rewrite flat_lo, flat_hi. reflexivity. Qed.

Lemma Live_perm s s' : Permutation (s_pool s ++ s_out s) (s_pool s' ++ s_out s') -> Live s -> Live s'.
Proof. intros HP [H1 H2]. split; [eapply all_disjoint_perm; eauto|eapply Permutation_Forall; eauto]. Qed.

Lemma step_live c s o : wf_config c -> op_fresh c s o -> Live s -> Live (step c s o).
Proof.
  intros Hc Hf HL. destruct o as [v|v|r m|i|]; cbn [step].
  - destruct Hf as [Hw Hf]. destruct (add v (s_pool s)) as [q|] eqn:E; [|exact HL].
    apply add_ok in E as (HP & _). destruct HL as [H1 H2]. split; cbn.
    + eapply all_disjoint_perm; [symmetry; apply Permutation_app_tail; exact HP|]. cbn.
      apply all_disjoint_cons. split; [|exact H1]. eapply Forall_impl; [|exact Hf]. intros. apply flat_disjoint. assumption.
    + eapply Permutation_Forall; [symmetry; apply Permutation_app_tail; exact HP|]. cbn.
      constructor; [apply flat_wf; exact Hw|exact H2].
  - destruct (remove v (s_pool s)) as [q|] eqn:E; [|exact HL].
    apply remove_ok in E as (b & _ & _ & HP & _). destruct HL as [H1 H2].
    pose proof (Permutation_app_tail (s_out s) HP) as HP'. cbn in HP'. split; cbn.
    + apply (all_disjoint_perm _ _ HP') in H1. apply all_disjoint_cons in H1. tauto.
    + apply (Permutation_Forall HP') in H2. inversion H2; assumption.
  - destruct (extract_cases c r m (s_pool s)) as [(i & v & _ & Hv & _ & E)|[_ E]]; rewrite E.
    + eapply Live_perm; [|exact HL]. cbn. rewrite <- Permutation_middle.
      change (v :: pop i (s_pool s) ++ s_out s) with ((v :: pop i (s_pool s)) ++ s_out s).
      apply Permutation_app_tail. apply nth_pop_perm. exact Hv.
    + cbn in Hf. destruct Hf as [Hr Hf].
      pose proof (empty_wf c r m Hc Hr) as (Hw & Hlo & Hhi).
      destruct (empty_block c (r_shape r) (r_item r) m) as [lo hi]. cbn in Hlo, Hhi.
      destruct HL as [H1 H2]. split; cbn.
      * eapply all_disjoint_perm; [apply Permutation_middle|]. apply all_disjoint_cons. split; [|exact H1].
        eapply Forall_impl; [|exact Hf]. intros b. unfold disjoint, disjoint_spans. lia.
      * eapply Permutation_Forall; [apply Permutation_middle|]. constructor; assumption.
  - destruct (nth_error (s_out s) i) as [v|] eqn:Ev; [|exact HL].
    destruct (add v (s_pool s)) as [q|] eqn:E; [|exact HL].
    apply add_ok in E as (HP & _). destruct HL as [H1 H2].
    assert (HP1 : Permutation (s_pool s ++ s_out s) (v :: s_pool s ++ pop i (s_out s))).
    { rewrite (Permutation_middle (s_pool s) (pop i (s_out s)) v). apply Permutation_app_head. apply nth_pop_perm. exact Ev. }
    assert (HP2 : Permutation (q ++ pop i (s_out s)) (flat v :: s_pool s ++ pop i (s_out s))).
    { change (flat v :: s_pool s ++ pop i (s_out s)) with ((flat v :: s_pool s) ++ pop i (s_out s)).
      apply Permutation_app_tail. exact HP. }
    apply (all_disjoint_perm _ _ HP1) in H1. apply (Permutation_Forall HP1) in H2.
    apply all_disjoint_cons in H1 as [H1 H1']. inversion H2; subst.
    split; cbn.
    + eapply all_disjoint_perm; [symmetry; exact HP2|]. apply all_disjoint_cons. split; [|exact H1'].
      eapply Forall_impl; [|exact H1]. intros. apply flat_disjoint. assumption.
    + eapply Permutation_Forall; [symmetry; exact HP2|]. constructor; [apply flat_wf; assumption|assumption].
  - destruct HL as [H1 H2]. split; cbn.
    + clear H2. induction (s_pool s) as [|a l IH]; [exact H1|]. cbn in H1. apply all_disjoint_cons in H1. tauto.
    + apply Forall_app in H2. tauto.
Qed.

Lemma run_live c ops s : wf_config c -> ops_fresh c ops s -> Live s -> Live (run c ops s).
Proof.
  intros Hc. revert s; induction ops as [|o ops IH]; cbn; intros s Hf HL; [exact HL|].
  destruct Hf as [Hf Hf']. apply IH; [exact Hf'|]. apply step_live; assumption.
Qed.

Lemma disjoint_addr a b : wf_arr a -> wf_arr b -> disjoint a b -> a_addr a <> a_addr b.
Proof. unfold wf_arr, disjoint, disjoint_spans. lia. Qed.

Lemma live_addr l : all_disjoint l -> Forall wf_arr l -> NoDup (map a_addr l).
Proof.
  induction l as [|a l IH]; cbn; intros H1 H2; [constructor|].
  apply all_disjoint_cons in H1 as [H1 H1']. inversion H2 as [|? ? Hwa Hwl]; subst. constructor; [|auto].
  intros Hin. apply in_map_iff in Hin as (b & Hb & Hin).
  rewrite Forall_forall in H1, Hwl. specialize (H1 b Hin). specialize (Hwl b Hin).
  pose proof (disjoint_addr a b Hwa Hwl H1). congruence.
Qed.

Lemma history_safe c ops : wf_config c -> ops_fresh c ops init ->
  let s := run c ops init in
  all_disjoint (s_pool s ++ s_out s) /\ NoDup (map a_addr (s_pool s ++ s_out s))
  /\ (forall v, In v (s_out s) -> contains v (s_pool s) = false).
Proof.
  intros Hc Hf s.
  assert (HL : Live s).
  { apply run_live; [exact Hc|exact Hf|]. split; constructor. }
  destruct HL as [H1 H2]. pose proof (live_addr _ H1 H2) as H3. repeat split; auto.
  intros v Hv. unfold contains. destruct (ifirst _ (s_pool s)) as [i|] eqn:E; [|reflexivity].
  exfalso. apply ifirst_some in E as (b & Hb & Hab & _).
  rewrite map_app in H3. 
  assert (In (a_addr v) (map a_addr (s_pool s))).
  { apply in_map_iff. exists b. split; [lia|]. eapply nth_error_In; eauto. }
  assert (In (a_addr v) (map a_addr (s_out s))) by (apply in_map; exact Hv).
  revert H3 H H0. generalize (map a_addr (s_pool s)) (map a_addr (s_out s)). intros l1 l2 ND I1 I2.
  induction l1 as [|x l1 IH]; [contradiction|]. cbn in ND. inversion ND as [|? ? Hn ND']; subst.
  destruct I1 as [->|I1]; [apply Hn, in_or_app; auto|auto].
Qed.

(** ** extraction meets the request *)
Lemma sorted_first (p : pool) i v : StronglySorted Z.le (map nbytes p) -> nth_error p i = Some v ->
  forall j b, (i <= j)%nat -> nth_error p j = Some b -> nbytes v <= nbytes b.
Proof.
  intros Hs Hv j b Hij Hb. revert i j Hv Hb Hij. induction p as [|a p IH]; intros i j Hv Hb Hij; [destruct i; discriminate|].
  cbn in Hs. inversion Hs as [|? ? Hs' Hf]; subst. destruct i as [|i], j as [|j]; cbn in Hv, Hb; try lia.
  - injection Hv as ->; injection Hb as ->. lia.
  - injection Hv as ->. rewrite Forall_forall in Hf. apply Hf. apply in_map. eapply nth_error_In; eauto.
  - eapply IH; eauto. lia.
Qed.

Lemma iscompatible_facts c a r tol : iscompatible c a r tol = true ->
  (r_aligned r = true -> a_addr a mod alignment c = 0)
  /\ (r_contig r = true -> a_contig a = true)
  /\ (if a_contig a then 0 <> r_nbytes r /\ r_nbytes r <= nbytes a
        /\ match tol with None => True | Some (n, d) => nbytes a * d <= n * r_nbytes r end
      else a_shape a = r_shape r /\ a_item a = r_item r).
Proof.
  unfold iscompatible. intros H.
  destruct (r_aligned r && negb (a_addr a mod alignment c =? 0)) eqn:E1; [discriminate|].
  split; [intros Ha; rewrite Ha in E1; cbn in E1; lia|].
  destruct (a_contig a) eqn:E2; cbn [negb] in H.
  - split; [reflexivity|]. destruct (Z.eqb_spec (r_nbytes r) 0); [discriminate|].
    apply andb_true_iff in H as [H1 H2]. repeat split; [lia|lia|].
    destruct tol as [[n1 d]|]; [lia|exact I].
  - destruct (r_contig r); [discriminate|]. split; [discriminate|].
    apply andb_true_iff in H as [H1 H2]. unfold shape_eqb in H1.
    destruct (list_eq_dec Z.eq_dec (a_shape a) (r_shape r)); [|discriminate]. split; [assumption|lia].
Qed.

Lemma view_ok b shape item : (a_contig b = true -> item * zprod shape <= nbytes b) ->
  (a_contig b = false -> a_shape b = shape /\ a_item b = item) ->
  exists v, view b shape item = Ok v /\ a_shape v = shape /\ a_item v = item /\ a_addr v = a_addr b
    /\ a_contig v = a_contig b
    /\ (a_contig b = false -> v = b)
    /\ (a_contig b = true -> a_lo v = a_addr b /\ a_hi v = a_addr b + nbytes v /\ nbytes v <= nbytes b).
Proof.
  intros H1 H2. unfold view. destruct (a_contig b) eqn:E.
  - specialize (H1 eq_refl). destruct (Z.leb_spec (item * zprod shape) (nbytes b)); [|lia].
    eexists; split; [reflexivity|]. cbn. repeat split; try congruence; unfold nbytes in *; cbn in *; lia.
  - destruct (H2 eq_refl) as [<- <-]. unfold shape_eqb.
    destruct (list_eq_dec Z.eq_dec (a_shape b) (a_shape b)); [|congruence]. rewrite Z.eqb_refl. cbn.
    exists b. repeat split; congruence.
Qed.

Lemma empty_aligned c shape item m : 0 < alignment c -> zprod shape * item <> 0 ->
  a_addr (empty c shape item m) mod alignment c = 0.
Proof.
  intros Hc Hn. unfold empty. destruct (Z.eqb_spec (zprod shape * item) 0); [contradiction|]. cbn.
  replace (m + (alignment c - m mod alignment c)) with ((m / alignment c + 1) * alignment c).
  - apply Z_mod_mult.
  - pose proof (Z.div_mod m (alignment c)). lia.
Qed.

Lemma extract_spec c r m p : wf_config c -> wf_req r -> pool_inv p ->
  let '(b, q, fresh) := extract c r m p in
  (if fresh
   then q = p /\ b = empty c (r_shape r) (r_item r) m
        /\ Forall (fun b' => iscompatible c b' r (Some (tol_num c, tol_den c)) = false) p
   else exists l1 l2, p = l1 ++ b :: l2 /\ q = l1 ++ l2
        /\ iscompatible c b r (Some (tol_num c, tol_den c)) = true
        /\ (forall b', In b' p -> iscompatible c b' r (Some (tol_num c, tol_den c)) = true -> nbytes b <= nbytes b')
        /\ (a_contig b = true -> nbytes b * tol_den c <= tol_num c * r_nbytes r)
        /\ (a_contig b = false -> nbytes b = r_nbytes r))
  /\ exists v, view b (r_shape r) (r_item r) = Ok v
      /\ (r_nbytes r <> 0 \/ r_aligned r = false -> meets c r v)
      /\ a_addr v = a_addr b /\ nbytes v = r_nbytes r /\ nbytes v <= nbytes b.
Proof.
  intros Hc Hr (_ & Hs & _).
  destruct (extract_cases c r m p) as [(i & b & Hi & Hb & Hcomp & E)|[Hall E]]; rewrite E.
  - split.
    + exists (firstn i p), (skipn (S i) p). repeat split.
      * apply nth_split. exact Hb.
      * exact Hcomp.
      * intros b' Hin Hc'. apply In_nth_error in Hin as (j & Hj).
        apply ifirst_some in Hi as (x & _ & _ & Hlt).
        destruct (Nat.lt_ge_cases j i) as [Hji|Hji].
        { specialize (Hlt j b' Hji Hj). cbn in Hlt. congruence. }
        { eapply sorted_first; eauto. }
      * intros Hcb. apply iscompatible_facts in Hcomp as (_ & _ & H). rewrite Hcb in H. tauto.
      * intros Hcb. apply iscompatible_facts in Hcomp as (_ & _ & H). rewrite Hcb in H. destruct H as [H1 H2].
        unfold nbytes, r_nbytes. rewrite H1, H2. reflexivity.
    + pose proof (iscompatible_facts _ _ _ _ Hcomp) as (Ha & Hct & H).
      destruct (view_ok b (r_shape r) (r_item r)) as (v & Hv & V1 & V2 & V3 & V4 & V5 & V6).
      { intros Hcb. rewrite Hcb in H. unfold r_nbytes in H. lia. }
      { intros Hcb. rewrite Hcb in H. exact H. }
      exists v. split; [exact Hv|]. split.
      * intros _. repeat split; auto; [rewrite V3; exact Ha|rewrite V4; exact Hct].
      * split; [exact V3|]. split; [unfold nbytes, r_nbytes; rewrite V1, V2; reflexivity|].
        destruct (a_contig b) eqn:Eb; [apply V6; reflexivity|]. rewrite (V5 eq_refl). lia.
  - split; [repeat split; exact Hall|].
    set (b := empty c (r_shape r) (r_item r) m).
    assert (B1 : a_contig b = true) by (unfold b, empty; destruct (_ =? 0); reflexivity).
    assert (B2 : a_shape b = r_shape r) by (unfold b, empty; destruct (_ =? 0); reflexivity).
    assert (B3 : a_item b = r_item r) by (unfold b, empty; destruct (_ =? 0); reflexivity).
    assert (B4 : nbytes b = r_nbytes r) by (unfold nbytes, r_nbytes; rewrite B2, B3; reflexivity).
    destruct (view_ok b (r_shape r) (r_item r)) as (v & Hv & V1 & V2 & V3 & V4 & V5 & V6).
    { intros _. rewrite B4. unfold r_nbytes. lia. }
    { congruence. }
    exists v. split; [exact Hv|]. split.
    * intros Hn. repeat split; auto; [|rewrite V4; auto].
      intros Ha. rewrite V3. destruct Hn as [Hn|Hn]; [|congruence]. apply empty_aligned; [exact Hc|exact Hn].
    * split; [exact V3|]. split; [unfold nbytes, r_nbytes; rewrite V1, V2; reflexivity|]. apply V6. exact B1.
Qed.

(** ** context managers *)
Lemma perm_remove_addr p q b v l : pool_inv p -> Permutation p (v :: l) -> Permutation p (b :: q) ->
  a_addr b = a_addr v -> Permutation q l.
Proof.
  intros (HN & _ & _) H1 H2 Ha.
  assert (b = v) as ->.
  { assert (In b (v :: l)) by (eapply Permutation_in; [exact H1|]; eapply Permutation_in; [symmetry; exact H2|left; reflexivity]).
    destruct H as [->|Hin]; [reflexivity|].
    apply (Permutation_NoDup (Permutation_map a_addr H1)) in HN. cbn in HN. inversion HN as [|? ? Hn _]; subst.
    exfalso. apply Hn. rewrite <- Ha. apply in_map. exact Hin. }
  apply (Permutation_cons_inv (a := v)). rewrite <- H2. exact H1.
Qed.

Definition is_alloc (c : config) (malloc : nat -> Z) (lo hi : nat) (b : arr) : Prop :=
  exists i r, (lo <= i < hi)%nat /\ b = flat (empty c (r_shape r) (r_item r) (malloc i)).

Lemma is_alloc_weaken c malloc lo hi lo' hi' b : (lo' <= lo)%nat -> (hi <= hi')%nat ->
  is_alloc c malloc lo hi b -> is_alloc c malloc lo' hi' b.
Proof. intros ? ? (i & r & H & E). exists i, r. split; [lia|exact E]. Qed.

Definition preserves (c : config) (malloc : nat -> Z) (f : comp) : Prop := forall w w' o,
  pool_inv (w_pool w) -> f w = (w', o) -> pool_inv (w_pool w') /\ (w_n w <= w_n w')%nat /\
  (o = Normal -> exists news, Permutation (w_pool w') (w_pool w ++ news)
     /\ length news = (w_n w' - w_n w)%nat /\ Forall (is_alloc c malloc (w_n w) (w_n w')) news).

Lemma with_get_preserves c malloc r body : (forall v, preserves c malloc (body v)) ->
  preserves c malloc (with_get c malloc r body).
Proof.
  intros Hb w w' o Hi. unfold with_get.
  pose proof (extract_inv c r (malloc (w_n w)) (w_pool w)) as HX.
  destruct (extract_cases c r (malloc (w_n w)) (w_pool w)) as [(i & v & _ & Hv & _ & E)|[_ E]]; rewrite E in HX |- *;
  specialize (HX _ _ _ Hi eq_refl).
  - assert (Hfv : flat v = v).
    { destruct Hi as (_ & _ & Hf). rewrite Forall_forall in Hf. apply Hf. eapply nth_error_In; eauto. }
    destruct (view v (r_shape r) (r_item r)) as [vw|e].
    2:{ intros H; injection H as <- <-. cbn. (split; [assumption|split; [lia|discriminate]]). }
    match goal with |- context[body vw ?w1] => destruct (body vw w1) as [w2 o2] eqn:EB;
      pose proof (Hb vw w1 w2 o2 HX EB) as (Hi2 & Hn2 & Hp2) end.
    cbn in Hn2, Hp2. destruct o2 as [|e].
    2:{ intros H; injection H as <- <-. (split; [assumption|split; [lia|discriminate]]). }
    destruct (add v (w_pool w2)) as [p2|e] eqn:EA; intros H; injection H as <- <-.
    2:{ (split; [assumption|split; [lia|discriminate]]). }
    cbn. split; [eapply add_inv; eauto|]. split; [exact Hn2|]. intros _.
    destruct (Hp2 eq_refl) as (news & HP & HL & HF). exists news. repeat split; auto.
    apply add_ok in EA as (HA & _). rewrite HA, Hfv. rewrite HP.
    change (v :: pop i (w_pool w) ++ news) with ((v :: pop i (w_pool w)) ++ news).
    apply Permutation_app_tail. symmetry. apply nth_pop_perm. exact Hv.
  - destruct (view _ (r_shape r) (r_item r)) as [vw|e].
    2:{ intros H; injection H as <- <-. cbn. (split; [assumption|split; [lia|discriminate]]). }
    match goal with |- context[body vw ?w1] => destruct (body vw w1) as [w2 o2] eqn:EB;
      pose proof (Hb vw w1 w2 o2 HX EB) as (Hi2 & Hn2 & Hp2) end.
    cbn in Hn2, Hp2. destruct o2 as [|e].
    2:{ intros H; injection H as <- <-. (split; [assumption|split; [lia|discriminate]]). }
    destruct (add _ (w_pool w2)) as [p2|e] eqn:EA; intros H; injection H as <- <-.
    2:{ (split; [assumption|split; [lia|discriminate]]). }
    cbn. split; [eapply add_inv; eauto|]. split; [lia|]. intros _.
    destruct (Hp2 eq_refl) as (news & HP & HL & HF).
    exists (flat (empty c (r_shape r) (r_item r) (malloc (w_n w))) :: news). repeat split.
    + apply add_ok in EA as (HA & _). rewrite HA, HP. apply Permutation_middle.
    + cbn. lia.
    + constructor; [exists (w_n w), r; split; [lia|reflexivity]|].
      eapply Forall_impl; [|exact HF]. intros. eapply is_alloc_weaken; [| |eassumption]; lia.
Qed.

Lemma with_set_preserves c malloc v body : preserves c malloc body -> preserves c malloc (with_set v body).
Proof.
  intros Hb w w' o Hi. unfold with_set. destruct (add v (w_pool w)) as [p|e] eqn:EA.
  2:{ intros H; injection H as <- <-. (split; [assumption|split; [lia|discriminate]]). }
  pose proof (add_inv _ _ _ Hi EA) as Hip.
  destruct (body (set_pool w p)) as [w2 o2] eqn:EB.
  pose proof (Hb (set_pool w p) w2 o2 Hip EB) as (Hi2 & Hn2 & Hp2). cbn in Hn2, Hp2.
  destruct o2 as [|e].
  2:{ intros H; injection H as <- <-. (split; [assumption|split; [lia|discriminate]]). }
  destruct (remove v (w_pool w2)) as [p2|e] eqn:ER; intros H; injection H as <- <-.
  2:{ (split; [assumption|split; [lia|discriminate]]). }
  cbn. split; [eapply remove_inv; eauto|]. split; [exact Hn2|]. intros _.
  destruct (Hp2 eq_refl) as (news & HP & HL & HF). exists news. repeat split; auto.
  apply add_ok in EA as (HA & _). apply remove_ok in ER as (b & _ & Hab & HR & _).
  eapply (perm_remove_addr (w_pool w2) p2 b (flat v)); [exact Hi2| |exact HR|rewrite flat_addr; exact Hab].
  rewrite HP, HA. reflexivity.
Qed.

Lemma preserves_ext c malloc (f : comp) (g : world -> world) :
  (forall w, w_pool (g w) = w_pool w /\ w_n (g w) = w_n w) -> preserves c malloc f ->
  preserves c malloc (fun w => f (g w)).
Proof.
  intros Hg Hf w w' o Hi H. destruct (Hg w) as [G1 G2].
  rewrite <- G1 in Hi. specialize (Hf (g w) w' o Hi H). rewrite G1, G2 in Hf. exact Hf.
Qed.

Lemma with_copy_if_preserves c malloc v al co body : (forall b, preserves c malloc (body b)) ->
  preserves c malloc (with_copy_if c malloc v al co body).
Proof.
  intros Hb. intros w w' o. unfold with_copy_if.
  destruct (negb _ || _); [|apply Hb].
  apply with_get_preserves. intros buf w0 w0' o0 Hi.
  destruct (body buf _) as [w3 o3] eqn:EB. 
  pose proof (Hb buf (set_mem w0 (a_addr buf) (w_mem w0 (a_addr v))) w3 o3 Hi EB) as (H1 & H2 & H3). cbn in H2, H3.
  destruct o3; intros H; injection H as <- <-; cbn; (split; [assumption|split; [assumption|first [discriminate|assumption]]]).
Qed.

Lemma exec_preserves c malloc p : preserves c malloc (exec c malloc p).
Proof.
  induction p as [|e|a f|p IHp q IHq|r p IH|b r p IH|v p IH|b v p IH|v al co p IH]; cbn [exec].
  - intros w w' o Hi H; injection H as <- <-. (split; [assumption|split; [lia|]]). intros _. exists []. rewrite app_nil_r.
    repeat split; auto. cbn. lia.
  - intros w w' o Hi H; injection H as <- <-. (split; [assumption|split; [lia|discriminate]]).
  - intros w w' o Hi H; injection H as <- <-. cbn. (split; [assumption|split; [lia|]]). intros _. exists []. rewrite app_nil_r.
    repeat split; auto. cbn. lia.
  - intros w w' o Hi. destruct (exec c malloc p w) as [w1 [|e]] eqn:E1.
    + intros H2. destruct (IHp w w1 Normal Hi E1) as (Hi1 & Hn1 & H1).
      destruct (IHq w1 w' o Hi1 H2) as (Hi2 & Hn2 & H3). split; [exact Hi2|]. split; [lia|]. intros ->.
      destruct (H1 eq_refl) as (n1 & P1 & L1 & F1). destruct (H3 eq_refl) as (n2 & P2 & L2 & F2).
      exists (n1 ++ n2). repeat split.
      * rewrite P2, P1, app_assoc. reflexivity.
      * rewrite app_length. lia.
      * apply Forall_app. split; (eapply Forall_impl; [|eassumption]; intros; eapply is_alloc_weaken; [| |eassumption]; lia).
    + intros H; injection H as <- <-. destruct (IHp w w1 (Exc e) Hi E1) as (Hi1 & Hn1 & H1).
      (split; [assumption|split; [lia|discriminate]]).
  - apply with_get_preserves. intros; exact IH.
  - unfold with_get_if. destruct b; [apply with_get_preserves; intros|]; exact IH.
  - apply with_set_preserves. exact IH.
  - unfold with_set_if. destruct b; [apply with_set_preserves|]; exact IH.
  - apply with_copy_if_preserves. intros; exact IH.
Qed.

(** Every context manager keeps the pool's invariant even when the body raises. *)
Lemma exec_keeps_inv c malloc p w w' o : pool_inv (w_pool w) -> exec c malloc p w = (w', o) -> pool_inv (w_pool w').
Proof. intros Hi H. apply (exec_preserves c malloc p w w' o Hi H). Qed.

Lemma exec_restores c malloc p w w' : pool_inv (w_pool w) -> exec c malloc p w = (w', Normal) ->
  exists news, Permutation (w_pool w') (w_pool w ++ news)
    /\ length news = (w_n w' - w_n w)%nat
    /\ Forall (fun b => exists i r, (w_n w <= i < w_n w')%nat
                        /\ b = flat (empty c (r_shape r) (r_item r) (malloc i))) news.
Proof. intros Hi H. apply (exec_preserves c malloc p w w' Normal Hi H). reflexivity. Qed.

Lemma ifirst_insert_addr v p i : existsb (fun b => a_addr b =? a_addr v) p = false -> (i <= length p)%nat ->
  ifirst (fun b => a_addr b =? a_addr v) (insert i (flat v) p) = Some i.
Proof.
  revert i; induction p as [|a p IH]; intros i H Hi; cbn in Hi.
  - replace i with O by lia. cbn. rewrite flat_addr, Z.eqb_refl. reflexivity.
  - cbn in H. apply orb_false_iff in H as [Ha Hp]. destruct i as [|i]; unfold insert; cbn [firstn skipn app ifirst].
    + rewrite flat_addr, Z.eqb_refl. reflexivity.
    + rewrite Ha. fold (insert i (flat v) p). rewrite IH by (auto; lia). reflexivity.
Qed.

Lemma pop_insert {A} i (x : A) l : (i <= length l)%nat -> pop i (insert i x l) = l.
Proof.
  revert i; induction l as [|a l IH]; intros i Hi; cbn in Hi.
  - replace i with O by lia. reflexivity.
  - destruct i; [reflexivity|]. unfold pop, insert. cbn [firstn skipn app]. f_equal.
    apply (IH i). lia.
Qed.

Lemma add_remove v p q : add v p = Ok q -> remove v q = Ok p.
Proof.
  unfold add, remove. destruct (existsb _ p) eqn:E; [discriminate|]. intros H; injection H as <-.
  rewrite flat_addr in E. 
  match goal with |- context[insert ?i _ _] => assert (Hi : (i <= length p)%nat) end.
  { destruct (ifirst _ p) as [i|] eqn:F; [|lia]. apply ifirst_some in F as (x & Hx & _).
    assert (i < length p)%nat by (apply nth_error_Some; congruence). lia. }
  rewrite ifirst_insert_addr by assumption. rewrite pop_insert by assumption. reflexivity.
Qed.

Lemma set_restores_exactly v body w w' :
  (forall w0 w1, body w0 = (w1, Normal) -> w_pool w1 = w_pool w0) ->
  with_set v body w = (w', Normal) -> w_pool w' = w_pool w.
Proof.
  intros Hb. unfold with_set. destruct (add v (w_pool w)) as [p|] eqn:EA; [|discriminate].
  destruct (body (set_pool w p)) as [w2 [|e]] eqn:EB; [|discriminate].
  pose proof (Hb _ _ EB) as EQ. cbn in EQ. rewrite EQ, (add_remove _ _ _ EA).
  intros H; injection H as <-. reflexivity.
Qed.

Lemma copy_if_contents c malloc v al co body w w' : wf_config c -> pool_inv (w_pool w) ->
  0 < a_item v -> Forall (fun d => 0 <= d) (a_shape v) ->
  with_copy_if c malloc v al co body w = (w', Normal) ->
  exists h win wout, body h win = (wout, Normal)
    /\ a_shape h = a_shape v /\ a_item h = a_item v
    /\ w_mem win (a_addr h) = w_mem w (a_addr v)
    /\ w_mem w' (a_addr v) = w_mem wout (a_addr h)
    /\ (forall a, a <> a_addr v -> w_mem w' a = w_mem wout a)
    /\ (forall a, a <> a_addr h -> w_mem win a = w_mem w a).
Proof.
  intros Hc Hi Hit Hsh. unfold with_copy_if. destruct (negb _ || _).
  2:{ intros H. exists v, w, w'. repeat split; auto. }
  unfold with_get.
  pose proof (extract_spec c {| r_shape := a_shape v; r_item := a_item v; r_aligned := false; r_contig := false |}
     (malloc (w_n w)) (w_pool w) Hc (conj Hit Hsh) Hi) as HS.
  destruct (extract c _ (malloc (w_n w)) (w_pool w)) as [[b q] fr].
  destruct HS as (_ & h & Hv & Hm & _). cbn [r_shape r_item] in *. rewrite Hv.
  specialize (Hm (or_intror eq_refl)). destruct Hm as (M1 & M2 & _).
  match goal with |- context[body h ?w2] => destruct (body h w2) as [w3 o3] eqn:EB; set (win := w2) in * end.
  destruct o3; [|discriminate].
  destruct (add b _) as [p2|]; [|discriminate]. intros H; injection H as <-.
  exists h, win, w3. repeat split; auto; cbn.
  - rewrite Z.eqb_refl. reflexivity.
  - rewrite Z.eqb_refl. reflexivity.
  - intros a Ha. destruct (Z.eqb_spec a (a_addr v)); [contradiction|reflexivity].
  - intros a Ha. destruct (Z.eqb_spec a (a_addr h)); [contradiction|reflexivity].
Qed.

Lemma empty_contig c shape item m : a_contig (empty c shape item m) = true.
Proof. unfold empty. destruct (_ =? 0); reflexivity. Qed.

(** The handle given by copy_if meets the requirements when all the entries of the pool do. *)
Lemma copy_if_compliant c malloc v al co body w w' : wf_config c -> pool_inv (w_pool w) ->
  0 < a_item v -> Forall (fun d => 0 <= d) (a_shape v) -> nbytes v <> 0 ->
  Forall (fun b => a_contig b = true /\ a_addr b mod alignment c = 0) (w_pool w) ->
  with_copy_if c malloc v al co body w = (w', Normal) ->
  exists h win wout, body h win = (wout, Normal)
    /\ (al = true -> a_addr h mod alignment c = 0) /\ (co = true -> a_contig h = true).
Proof.
  intros Hc Hi Hit Hsh Hnb Hpool. unfold with_copy_if.
  destruct (negb _ || _) eqn:EC.
  2:{ intros H. exists v, w, w'. apply orb_false_iff in EC as [E1 E2]. repeat split; auto.
      - intros ->. lia.
      - intros ->. cbn in E2. destruct (a_contig v); auto; discriminate. }
  unfold with_get.
  set (r := {| r_shape := a_shape v; r_item := a_item v; r_aligned := false; r_contig := false |}).
  pose proof (extract_spec c r (malloc (w_n w)) (w_pool w) Hc (conj Hit Hsh) Hi) as HS.
  assert (HB : let '(b, q, fr) := extract c r (malloc (w_n w)) (w_pool w) in
     a_contig b = true /\ a_addr b mod alignment c = 0).
  { destruct (extract_cases c r (malloc (w_n w)) (w_pool w)) as [(i & b & _ & Hb & _ & E)|[_ E]]; rewrite E.
    - rewrite Forall_forall in Hpool. apply Hpool. eapply nth_error_In; eauto.
    - split; [apply empty_contig|]. apply empty_aligned; [exact Hc|exact Hnb]. }
  destruct (extract c r (malloc (w_n w)) (w_pool w)) as [[b q] fr].
  destruct HS as (_ & h & Hv & _ & Hadd & _). destruct HB as [HB1 HB2].
  pose proof (view_ok b (r_shape r) (r_item r)) as VO.
  assert (Hcont : a_contig h = true).
  { unfold view in Hv. rewrite HB1 in Hv. destruct (_ <=? _); [|discriminate]. injection Hv as <-. reflexivity. }
  rewrite Hv.
  match goal with |- context[body h ?w2] => destruct (body h w2) as [w3 o3] eqn:EB; set (win := w2) in * end.
  destruct o3; [|discriminate]. intros _. exists h, win, w3. repeat split; auto. intros _. rewrite Hadd. exact HB2.
Qed.

Lemma empty_spec c shape item m : wf_config c -> 0 < item -> Forall (fun d => 0 <= d) shape ->
  let a := empty c shape item m in
  a_shape a = shape /\ a_item a = item /\ a_contig a = true
  /\ (nbytes a <> 0 -> a_addr a mod alignment c = 0)
  /\ (let '(lo, hi) := empty_block c shape item m in lo <= a_addr a /\ a_addr a + nbytes a <= hi
        /\ (nbytes a <> 0 -> hi = lo + nbytes a + alignment c)).
Proof.
  intros Hc Hi Hs a. apply zprod_nonneg in Hs.
  assert (A1 : a_shape a = shape) by (unfold a, empty; destruct (_ =? 0); reflexivity).
  assert (A2 : a_item a = item) by (unfold a, empty; destruct (_ =? 0); reflexivity).
  assert (A3 : nbytes a = zprod shape * item) by (unfold nbytes; rewrite A1, A2; reflexivity).
  repeat split; auto.
  - unfold a, empty; destruct (_ =? 0); reflexivity.
  - rewrite A3. intros. apply empty_aligned; assumption.
  - rewrite A3. unfold a, empty, empty_block. pose proof (Z.mod_pos_bound m (alignment c) Hc).
    destruct (Z.eqb_spec (zprod shape * item) 0); cbn; lia.
Qed.
