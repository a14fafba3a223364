(** Proofs for C44. *)
From Coq Require Import String Ascii Permutation.
From Verif Require Import Base AttrModel AttrSpec.

Section Dict.
Context {V : Type}.
Implicit Types d e : dict V.
Lemma get_put d k v l : get (put d k v) l = if String.eqb k l then Some v else get d l.
Proof.
  induction d as [|[a w] d IH]; cbn [put get]; [reflexivity|]. destruct (String.eqb_spec a k) as [->|Hk].
  - cbn [get]. destruct (String.eqb k l); reflexivity.
  - cbn [get]. rewrite IH. destruct (String.eqb_spec a l) as [->|]; [|reflexivity]. destruct (String.eqb_spec k l) as [->|]; [congruence|reflexivity].
Qed.
Lemma get_filter (p : string -> bool) d k : get (filter (fun i => p (fst i)) d) k = if p k then get d k else None.
Proof.
  induction d as [|[a w] d IH]; cbn [filter get fst]; [destruct (p k); reflexivity|]. destruct (p a) eqn:Pa; cbn [get]; rewrite IH.
  - destruct (String.eqb_spec a k) as [->|]; [rewrite Pa; reflexivity|reflexivity].
  - destruct (String.eqb_spec a k) as [->|]; [rewrite Pa; reflexivity|reflexivity].
Qed.
Lemma get_remove d k l : get (remove d k) l = if String.eqb l k then None else get d l.
Proof. unfold remove. rewrite (get_filter (fun a => negb (String.eqb a k))). destruct (String.eqb l k); reflexivity. Qed.
Lemma get_keep c c' d k : get (keep_attributes c c' d) k = if isclassattr k c && negb (isclassattr k c') then None else get d k.
Proof. unfold keep_attributes. rewrite (get_filter (fun a => negb (isclassattr a c && negb (isclassattr a c')))). destruct (_ && _); reflexivity. Qed.
Lemma get_update d e k : get (update d e) k = match get (update [] e) k with Some v => Some v | None => get d k end.
Proof.
  unfold update. revert d.
  induction e as [|[a v] e IH] using rev_ind; intros d; cbn [fold_left get]; [reflexivity|]. rewrite !fold_left_app. cbn [fold_left fst snd]. rewrite !get_put. destruct (String.eqb a k); [reflexivity|]. apply IH.
Qed.
Lemma in_keys d k : In k (keys d) <-> get d k <> None.
Proof.
  unfold keys. induction d as [|[a w] d IH]; cbn; [split; [contradiction|congruence]|]. destruct (String.eqb_spec a k) as [->|N]; [split; [discriminate|auto]|]. rewrite <- IH. split; [intros [H|H]; [contradiction|exact H]|auto].
Qed.
Lemma keys_put d k v : well_formed d -> well_formed (put d k v).
Proof.
  unfold well_formed. induction d as [|[a w] d IH]; cbn [put keys map fst]; intros H; [constructor; [intros []|constructor]|]. apply NoDup_cons_iff in H. destruct H as [H1 H2].
  destruct (String.eqb_spec a k) as [->|N]; cbn [keys map fst]; constructor; auto. intros I. apply (in_keys (put d k v) a) in I. rewrite get_put in I. destruct (String.eqb_spec k a); [congruence|]. apply in_keys in I. contradiction.
Qed.
Lemma keys_filter p d : well_formed d -> well_formed (filter p d).
Proof.
  unfold well_formed, keys. induction d as [|i d IH]; cbn [filter map]; intros H; [constructor|]. apply NoDup_cons_iff in H. destruct H as [H1 H2]. destruct (p i); cbn [map]; [|auto]. constructor; [|auto].
  intros I. apply H1. apply in_map_iff in I. destruct I as (j & E & I). apply filter_In in I. apply in_map_iff. exists j. tauto.
Qed.
Lemma keys_update d e : well_formed d -> well_formed (update d e).
Proof. unfold update. revert d. induction e as [|i e IH]; intros d H; cbn [fold_left]; [exact H|]. apply IH, keys_put, H. Qed.
Lemma same_nil d : same_dict d [] <-> d = [].
Proof. split; [|intros ->; intros k; reflexivity]. destruct d as [|[a w] d]; [reflexivity|]. intros H. specialize (H a). cbn in H. rewrite String.eqb_refl in H. discriminate. Qed.
Lemma same_empty d e : same_dict d e -> (d = [] <-> e = []).
Proof. intros H. rewrite <- !same_nil. split; intros G k; [rewrite <- H; apply G|rewrite H; apply G]. Qed.
Lemma update_same d d' e : same_dict d d' -> same_dict (update d e) (update d' e).
Proof. intros H k. rewrite (get_update d), (get_update d'), H. reflexivity. Qed.

(** the sorted attributes *)
Lemma insert_perm i d : Permutation (insert i d) (i :: d).
Proof. induction d as [|j d IH]; cbn [insert]; [reflexivity|]. destruct (String.leb _ _); [reflexivity|]. rewrite IH. apply perm_swap. Qed.
Lemma sort_perm d : Permutation (sort d) d.
Proof. induction d as [|i d IH]; cbn [sort fold_right]; [reflexivity|]. fold (sort d). rewrite insert_perm. apply perm_skip, IH. Qed.
Lemma get_in d k v : well_formed d -> (get d k = Some v <-> In (k, v) d).
Proof.
  unfold well_formed, keys. induction d as [|[a w] d IH]; cbn [get map fst]; intros W; [split; [discriminate|intros []]|]. apply NoDup_cons_iff in W. destruct W as [W1 W2]. destruct (String.eqb_spec a k) as [->|N].
  - split; [intros E; injection E as ->; left; reflexivity|]. intros [E|I]; [injection E as ->; reflexivity|]. exfalso. apply W1. apply in_map_iff. exists (k, v). auto.
  - rewrite IH by exact W2. split; [right; assumption|]. intros [E|I]; [injection E; congruence|exact I].
Qed.
Lemma get_perm d e k : well_formed d -> Permutation e d -> get e k = get d k.
Proof.
  intros W P. assert (We : well_formed e) by (unfold well_formed, keys in *; apply (Permutation_NoDup (l := map fst d)); [apply Permutation_sym, Permutation_map, P|exact W]).
  destruct (get d k) as [v|] eqn:E.
  - apply get_in in E; [|exact W]. apply get_in; [exact We|]. apply (Permutation_in _ (Permutation_sym P)), E.
  - destruct (get e k) as [v|] eqn:F; [|reflexivity]. apply get_in in F; [|exact We]. apply (Permutation_in _ P) in F. apply get_in in F; [|exact W]. congruence.
Qed.
Lemma get_update_wf d e k : well_formed e -> get (update d e) k = match get e k with Some v => Some v | None => get d k end.
Proof.
  intros W. rewrite get_update. replace (get (update [] e) k) with (get e k); [reflexivity|]. unfold update.
  assert (H : forall e d, well_formed e -> (forall a, In a (keys e) -> get d a = None) -> get (fold_left (fun d i => put d (fst i) (snd i)) e d) k = match get e k with Some v => Some v | None => get d k end).
  { clear. unfold well_formed. induction e as [|[a w] e IH]; intros d W N; cbn [fold_left get keys map fst snd]; [reflexivity|]. cbn [keys map fst] in W. apply NoDup_cons_iff in W. destruct W as [W1 W2]. rewrite IH.
    - rewrite get_put. destruct (String.eqb_spec a k) as [->|]; [|reflexivity]. destruct (get e k) as [v|] eqn:E; [|reflexivity]. exfalso. apply W1. apply (in_keys e k). congruence.
    - exact W2.
    - intros b Hb. rewrite get_put. destruct (String.eqb_spec a b) as [->|]; [contradiction|]. apply N. right. exact Hb. }
  rewrite H; [|exact W|reflexivity]. cbn. destruct (get e k); reflexivity.
Qed.
Lemma set_attributes_simple (c : class V) old d k : (forall k, c_property c k = None) -> well_formed d -> get (set_attributes c old d) k = match get d k with Some v => Some v | None => get old k end.
Proof.
  intros P W. unfold set_attributes. assert (E : forall (l o : dict V), fold_left (fun o (i : string * V) => set_attribute c o (fst i) (snd i)) l o = update o l).
  { unfold update. induction l as [|i l IH]; intros o; cbn [fold_left]; [reflexivity|]. rewrite IH. unfold set_attribute. rewrite P. reflexivity. }
  rewrite E, get_update_wf.
  - rewrite (get_perm d (sort d)) by (exact W || apply sort_perm). reflexivity.
  - unfold well_formed, keys in *. apply (Permutation_NoDup (l := map fst d)); [apply Permutation_sym, Permutation_map, sort_perm|exact W].
Qed.
Lemma keys_set (c : class V) old d : well_formed old -> well_formed (set_attributes c old d).
Proof. unfold set_attributes. generalize (sort d). intros l. revert old. induction l as [|i l IH]; intros old H; cbn [fold_left]; [exact H|]. apply IH. apply keys_put, H. Qed.

(** one step of the propagation *)
Lemma propagate_wf known o c d : regular known o -> well_formed d -> well_formed (snd (propagate o c d)).
Proof.
  intros (E & _) W. unfold propagate. cbn [snd]. set (d1 := remove _ _). assert (W1 : well_formed d1) by (apply keys_filter; destruct (classout o); [destruct (same_class _ _)|]; try apply keys_filter; exact W).
  destruct (attrout o); cbn [apply_attribute extensional] in *; [apply keys_update, W1|]. exact (proj1 (E d1 d1 W1 W1 (fun _ => eq_refl))).
Qed.
Lemma apply_same a d e : extensional a -> well_formed d -> well_formed e -> same_dict d e -> same_dict (apply_attribute a d) (apply_attribute a e).
Proof. intros E Wd We H. destruct a; cbn [apply_attribute extensional] in *; [apply update_same, H|]. apply E; assumption. Qed.
Lemma propagate_same known o c c' d e : regular known o -> well_formed d -> well_formed e -> same_dict d e -> c_id c = c_id c' -> (forall a, isclassattr a c = isclassattr a c') ->
  same_dict (snd (propagate o c d)) (snd (propagate o c' e)).
Proof.
  intros R Wd We H Ec Ea. unfold propagate. cbn [snd]. apply apply_same; [apply R| | |].
  - apply keys_filter. destruct (classout o); [destruct (same_class _ _)|]; try apply keys_filter; exact Wd.
  - apply keys_filter. destruct (classout o); [destruct (same_class _ _)|]; try apply keys_filter; exact We.
  - intros k. rewrite !get_remove. destruct (String.eqb k _); [reflexivity|]. destruct (classout o) as [c1|]; [|apply H]. unfold same_class. rewrite Ec. destruct (Nat.eqb _ _); [apply H|]. rewrite !get_keep, Ea, H. reflexivity.
Qed.
End Dict.

Section Calls.
Context {V : Type} (ndarray ndarraywrap : class V) (known : class V -> Prop) (W : world ndarray ndarraywrap known).
Notation call := (call ndarray ndarraywrap). Notation close := (close ndarray ndarraywrap).
Lemma same_iff c c' : known c -> known c' -> same_class c c' = true <-> c = c'.
Proof. intros Kc Kc'. unfold same_class. rewrite Nat.eqb_eq. split; [apply (w_ids _ _ _ W); assumption|congruence]. Qed.
Definition wrapped (c : class V) (d : dict V) : class V := if same_class c ndarray && negb (match d with [] => true | _ => false end) then ndarraywrap else c.
Lemma wrapped_known c d : known c -> known (wrapped c d).
Proof. unfold wrapped. intros H. destruct (_ && _); [apply (w_known _ _ _ W)|exact H]. Qed.
Lemma wrapped_ndarray c d : known c -> wrapped c d = ndarray -> d = [] /\ c = ndarray.
Proof.
  intros Kc. unfold wrapped. destruct (same_class c ndarray) eqn:S; cbn [andb].
  - apply same_iff in S; [|exact Kc|apply (w_known _ _ _ W)]. destruct d; cbn [negb]; [auto|]. intros E. exfalso. apply (w_known _ _ _ W). rewrite E. reflexivity.
  - intros ->. unfold same_class in S. rewrite Nat.eqb_refl in S. discriminate.
Qed.
Lemma call_none prop x c d : prop (o_class x) (o_dict x) = (c, d) -> known c -> well_formed d -> simple (wrapped c d) ->
  exists r, call prop x None = Ok (r, None) /\ o_class r = wrapped c d /\ same_dict (o_dict r) d /\ array_ok ndarray known r.
Proof.
  intros E Kc Wd [P F]. unfold AttrModel.call. rewrite E. fold (wrapped c d). pose proof (wrapped_known c d Kc) as Kw. destruct (same_class (wrapped c d) ndarray) eqn:S.
  - apply same_iff in S; [|exact Kw|apply (w_known _ _ _ W)]. destruct (wrapped_ndarray c d Kc S) as [-> ->]. eexists. split; [reflexivity|]. cbn [o_class o_dict]. split; [symmetry; exact S|]. split; [intros k; reflexivity|].
    split; [apply (w_known _ _ _ W)|]. split; [constructor|reflexivity].
  - eexists. split; [reflexivity|]. cbn [o_class o_dict]. split; [reflexivity|]. assert (D : same_dict (set_attributes (wrapped c d) (update [] (c_finalize (wrapped c d))) d) d).
    { intros k. rewrite set_attributes_simple by assumption. rewrite F. cbn. destruct (get d k); reflexivity. }
    split; [exact D|]. split; [exact Kw|]. cbn [o_class o_dict]. split; [apply keys_set, keys_update; constructor|]. intros E0. rewrite E0 in S. unfold same_class in S. rewrite Nat.eqb_refl in S. discriminate.
Qed.
Lemma propagate_known o c d : regular known o -> known c -> known (fst (propagate o c d)).
Proof. intros (_ & _ & K & _) Kc. unfold propagate. cbn [fst]. destruct (classout o); assumption. Qed.

(** one operator for the propagation of a composition and for calls: the class may be numpy.ndarray in the former and ndarraywrap in the latter *)
Lemma step_close o c c' d e : regular known o -> known c -> known c' -> close c c' -> well_formed d -> well_formed e -> same_dict d e ->
  same_dict (snd (propagate o c d)) (snd (propagate o c' e)) /\ close (fst (propagate o c d)) (fst (propagate o c' e)).
Proof.
  intros R Kc Kc' [->|[-> ->]] Wd We H.
  - split; [apply (propagate_same known); auto|left; reflexivity].
  - split; [|unfold propagate; cbn [fst]; destruct (classout o); [left; reflexivity|right; auto]].
    unfold propagate. cbn [snd]. apply apply_same; [apply R| | |].
    + apply keys_filter. destruct (classout o); [destruct (same_class _ _)|]; try apply keys_filter; exact Wd.
    + apply keys_filter. destruct (classout o); [destruct (same_class _ _)|]; try apply keys_filter; exact We.
    + intros k. rewrite !get_remove. destruct (String.eqb k _); [reflexivity|]. destruct (classout o) as [c1|] eqn:C1; [|apply H].
      assert (K1 : known c1) by (destruct R as (_ & _ & K & _); rewrite C1 in K; exact K).
      assert (A : forall c2, c2 = ndarray \/ c2 = ndarraywrap -> isclassattr k c2 && negb (isclassattr k c1) = false).
      { intros c2 H2. assert (Ea : isclassattr k c2 = isclassattr k ndarray) by (destruct H2 as [-> | ->]; [reflexivity|apply (w_wrap _ _ _ W)]). rewrite Ea. destruct (isclassattr k ndarray) eqn:N; [|reflexivity].
        rewrite (w_base _ _ _ W c1 k K1 N). reflexivity. }
      destruct (same_class c1 ndarray), (same_class c1 ndarraywrap); rewrite ?get_keep, ?A, ?H by auto; reflexivity.
Qed.
Lemma one_by_one_ok (S : forall c, known c -> simple c) : forall ops x, Forall (regular known) ops -> array_ok ndarray known x ->
  exists y c d, one_by_one ndarray ndarraywrap ops x = Ok y /\ propagate_composition ops (o_class x) (o_dict x) = (c, d) /\ array_ok ndarray known y /\ known c /\ well_formed d /\
  same_dict d (o_dict y) /\ close c (o_class y).
Proof.
  intros ops x F Ax. induction ops as [|o ops IH].
  - exists x, (o_class x), (o_dict x). split; [reflexivity|]. split; [reflexivity|]. split; [exact Ax|]. split; [apply Ax|]. split; [apply Ax|]. split; [intros k; reflexivity|left; reflexivity].
  - apply Forall_cons_iff in F. destruct F as [Ro F]. destruct (IH F) as (y & c & d & E & P & Ay & Kc & Wd & D & C). cbn [one_by_one]. rewrite E. cbn [rbind].
    destruct (step_close o c (o_class y) d (o_dict y) Ro Kc (proj1 Ay) C Wd (proj1 (proj2 Ay)) D) as [D' C'].
    destruct (call_none (propagate o) y (fst (propagate o (o_class y) (o_dict y))) (snd (propagate o (o_class y) (o_dict y)))) as (r & Er & Cr & Dr & Ar).
    + apply surjective_pairing.
    + apply propagate_known; [exact Ro|apply Ay].
    + apply (propagate_wf known); [exact Ro|apply Ay].
    + apply S, wrapped_known, propagate_known; [exact Ro|apply Ay].
    + exists r, (fst (propagate o c d)), (snd (propagate o c d)). rewrite Er. cbn [rbind fst]. split; [reflexivity|]. split; [|split; [exact Ar|]; split; [apply propagate_known; assumption|]; split; [apply (propagate_wf known); assumption|]; split].
      * unfold propagate_composition in *. cbn [rev]. rewrite fold_left_app, P. cbn [fold_left fst snd]. apply surjective_pairing.
      * intros k. rewrite D', <- Dr. reflexivity.
      * rewrite Cr. unfold wrapped. destruct (same_class (fst (propagate o (o_class y) (o_dict y))) ndarray) eqn:Sn; cbn [andb]; [|exact C'].
        destruct (negb _); [|exact C']. apply same_iff in Sn; [|apply propagate_known; [exact Ro|apply Ay]|apply (w_known _ _ _ W)]. destruct C' as [C'|[C' _]]; [right; split; [congruence|reflexivity]|right; split; [exact C'|reflexivity]].
Qed.
Lemma composition_ok (S : forall c, known c -> simple c) ops x : Forall (regular known) ops -> array_ok ndarray known x ->
  exists r y, call (propagate_composition ops) x None = Ok (r, None) /\ one_by_one ndarray ndarraywrap ops x = Ok y /\ same_dict (o_dict r) (o_dict y) /\ close (o_class r) (o_class y) /\ (o_dict r <> [] -> o_class r = o_class y).
Proof.
  intros F Ax. destruct (one_by_one_ok S ops x F Ax) as (y & c & d & E & P & Ay & Kc & Wd & D & C). destruct (call_none (propagate_composition ops) x c d P Kc Wd (S _ (wrapped_known c d Kc))) as (r & Er & Cr & Dr & Ar).
  exists r, y. split; [exact Er|]. split; [exact E|]. assert (Dry : same_dict (o_dict r) (o_dict y)) by (intros k; rewrite Dr; apply D). split; [exact Dry|].
  assert (H : o_dict r <> [] -> o_class r = o_class y).
  { intros N. rewrite Cr. unfold wrapped. destruct C as [-> |[-> Cy]].
    - destruct (same_class (o_class y) ndarray) eqn:Sy; cbn [andb]; [|reflexivity]. apply same_iff in Sy; [|apply Ay|apply (w_known _ _ _ W)]. exfalso. apply N. apply (same_empty _ _ Dry), (proj2 (proj2 Ay)), Sy.
    - unfold same_class. rewrite Nat.eqb_refl. cbn [andb]. destruct d; cbn [negb]; [|symmetry; exact Cy]. exfalso. apply N. apply same_nil. exact Dr. }
  split; [|exact H]. destruct (o_dict r) eqn:Or; [|left; apply H; congruence]. rewrite Cr. assert (d = []) as -> by (apply same_nil; intros k; symmetry; apply Dr). unfold wrapped. rewrite Bool.andb_false_r. exact C.
Qed.
End Calls.

(** * Merged attributes *)
Section Merge.
Context {V : Type} (known : class V -> Prop).
Definition applied (l : list (attribute V)) (d : dict V) : dict V := fold_left (fun d a => apply_attribute a d) l d.
Lemma apply_wf a (d : dict V) : extensional a -> well_formed d -> well_formed (apply_attribute a d).
Proof. intros E W. destruct a; cbn [apply_attribute extensional] in *; [apply keys_update, W|]. exact (proj1 (E d d W W (fun _ => eq_refl))). Qed.
Lemma applied_wf l : forall d, Forall extensional l -> well_formed d -> well_formed (applied l d).
Proof. induction l as [|a l IH]; intros d F W; cbn; [exact W|]. apply Forall_cons_iff in F. apply IH; [apply F|]. apply apply_wf; [apply F|exact W]. Qed.
Lemma applied_same l : forall d e, Forall extensional l -> well_formed d -> well_formed e -> same_dict d e -> same_dict (applied l d) (applied l e).
Proof.
  induction l as [|a l IH]; intros d e F Wd We H; cbn; [exact H|]. apply Forall_cons_iff in F. destruct F as [Ea F]. apply IH; [exact F|apply apply_wf; assumption|apply apply_wf; assumption|apply apply_same; assumption].
Qed.
Lemma applied_dict l : forall (d : dict V), Forall extensional l -> forallb is_dict l = true -> same_dict (update d (applied l [])) (applied l d).
Proof.
  induction l as [|a l IH] using rev_ind; intros d F D; [intros k; reflexivity|]. apply Forall_app in F. destruct F as [F Fa]. rewrite forallb_app in D. apply andb_prop in D. destruct D as [D Da]. unfold applied. rewrite !fold_left_app. cbn [fold_left]. fold (applied l d) (applied l []).
  destruct a as [e|f]; [|discriminate]. cbn [apply_attribute]. apply Forall_cons_iff in Fa. destruct Fa as [We _]. cbn [extensional] in We. intros k.
  assert (W0 : well_formed (applied l [])) by (apply applied_wf; [exact F|constructor]).
  rewrite get_update_wf by (apply keys_update, W0). rewrite !get_update_wf by exact We. destruct (get e k); [reflexivity|]. rewrite <- (IH d F D k). rewrite get_update_wf by exact W0. reflexivity.
Qed.
Lemma merge_attr_same l (d : dict V) : Forall extensional l -> same_dict (apply_attribute (merge_attr l) d) (applied l d).
Proof.
  intros F. unfold merge_attr. destruct (forallb is_dict l) eqn:D; cbn [apply_attribute]; [|intros k; reflexivity]. fold (applied l []). apply applied_dict; assumption.
Qed.
Lemma merge_attr_extensional l : Forall extensional l -> extensional (merge_attr (V := V) l).
Proof.
  intros F. unfold merge_attr. destruct (forallb is_dict l) eqn:D; cbn [extensional].
  - apply applied_wf; [exact F|constructor].
  - intros d e Wd We H. split; [apply applied_wf; assumption|apply applied_same; assumption].
Qed.
Lemma apply_no_shape a (d : dict V) : extensional a -> no_shape a -> get d "shape_global" = None -> get (apply_attribute a d) "shape_global" = None.
Proof. intros E N H. destruct a; cbn [apply_attribute no_shape extensional] in *; [rewrite get_update_wf by exact E; rewrite N; exact H|apply N, H]. Qed.
Context (Same : forall c c' k, known c -> known c' -> isclassattr k c = true -> isclassattr k c' = true).
Lemma keep_all c c' (d : dict V) k : known c -> known c' -> get (keep_attributes c c' d) k = get d k.
Proof. intros Kc Kc'. rewrite get_keep. destruct (isclassattr k c) eqn:E; [|reflexivity]. rewrite (Same c c' k Kc Kc' E). reflexivity. Qed.
Lemma propagate_apply o c d : regular known o -> known c -> well_formed d -> same_dict (snd (propagate o c d)) (apply_attribute (attrout o) (remove d "shape_global")).
Proof.
  intros (E & _ & K & _) Kc W. unfold propagate. cbn [snd]. apply apply_same; [exact E| | |].
  - apply keys_filter. destruct (classout o); [destruct (same_class _ _)|]; try apply keys_filter; exact W.
  - apply keys_filter, W.
  - intros k. rewrite !get_remove. destruct (String.eqb k _); [reflexivity|]. destruct (classout o) as [c1|]; [|reflexivity]. destruct (same_class _ _); [reflexivity|]. apply keep_all; assumption.
Qed.
Definition class_after (c : class V) (l : list (option (class V))) : class V := match first_class l with Some c' => c' | None => c end.
Lemma composition_apply ops c d : ops <> [] -> Forall (regular known) ops -> Forall (fun o => no_shape (attrout o)) ops -> known c -> well_formed d ->
  let r := propagate_composition ops c d in fst r = class_after c (map classout ops) /\ known (fst r) /\ well_formed (snd r) /\ get (snd r) "shape_global" = None /\ same_dict (snd r) (applied (map attrout (rev ops)) (remove d "shape_global")).
Proof.
  intros N F S Kc W. assert (W0 : well_formed (remove d "shape_global")) by apply keys_filter, W.
  induction ops as [|o ops IH]; [congruence|]. apply Forall_cons_iff in F. destruct F as [Ro F]. apply Forall_cons_iff in S. destruct S as [So S].
  assert (Fr : Forall extensional (map attrout (rev ops))). { apply Forall_forall. intros a Ha. apply in_map_iff in Ha. destruct Ha as (o' & <- & Ho). apply in_rev in Ho. rewrite Forall_forall in F. apply (F o' Ho). }
  unfold propagate_composition in *. cbn [rev]. rewrite fold_left_app, map_app. cbn [fold_left map]. unfold applied. rewrite fold_left_app. cbn [fold_left]. fold (applied (map attrout (rev ops)) (remove d "shape_global")).
  assert (C : exists c1 d1, fold_left (fun cd o => propagate o (fst cd) (snd cd)) (rev ops) (c, d) = (c1, d1) /\ c1 = class_after c (map classout ops) /\ known c1 /\ well_formed d1 /\ same_dict (remove d1 "shape_global") (applied (map attrout (rev ops)) (remove d "shape_global"))).
  { destruct ops as [|o' ops'].
    - exists c, d. cbn. repeat split; auto.
    - destruct (IH ltac:(discriminate) F S) as (H1 & H2 & H3 & H4 & H5). destruct (fold_left _ (rev (o' :: ops')) (c, d)) as [c1 d1]. cbn [fst snd] in *. exists c1, d1. repeat split; auto.
      intros k. rewrite get_remove, <- H5. destruct (String.eqb_spec k "shape_global") as [->|]; [symmetry; exact H4|reflexivity]. }
  destruct C as (c1 & d1 & -> & Ec & K1 & W1 & D1). cbn [fst snd]. pose proof (propagate_apply o c1 d1 Ro K1 W1) as P.
  split. { unfold propagate, class_after. cbn [fst map first_class]. destruct (classout o); [reflexivity|exact Ec]. }
  split. { unfold propagate. cbn [fst]. destruct Ro as (_ & _ & K & _). destruct (classout o); assumption. }
  split; [apply (propagate_wf known); assumption|]. split.
  - rewrite P. apply apply_no_shape; [apply Ro|exact So|]. rewrite get_remove. reflexivity.
  - intros k. rewrite P. apply apply_same; [apply Ro|apply keys_filter, W1|apply applied_wf; assumption|exact D1].
Qed.
Lemma merge_composition_ok ops c d : ops <> [] -> Forall (regular known) ops -> Forall (fun o => no_shape (attrout o)) ops -> known c -> well_formed d ->
  fst (propagate (merge_composition ops) c d) = fst (propagate_composition ops c d) /\ same_dict (snd (propagate (merge_composition ops) c d)) (snd (propagate_composition ops c d)).
Proof.
  intros N F S Kc W. destruct (composition_apply ops c d N F S Kc W) as (H1 & H2 & _ & _ & H5).
  assert (Fr : Forall extensional (map attrout (rev ops))). { apply Forall_forall. intros a Ha. apply in_map_iff in Ha. destruct Ha as (o' & <- & Ho). apply in_rev in Ho. rewrite Forall_forall in F. apply (F o' Ho). }
  split; [rewrite H1; reflexivity|]. intros k. rewrite H5. unfold propagate. cbn [snd merge_composition classout attrout].
  set (d1 := match first_class _ with Some _ => _ | None => d end). assert (D1 : well_formed d1 /\ same_dict d1 d).
  { unfold d1. unfold class_after in H1. destruct (first_class (map classout ops)) as [c'|]; [|split; [exact W|intros j; reflexivity]]. destruct (same_class _ _); [split; [exact W|intros j; reflexivity]|].
    split; [apply keys_filter, W|]. intros j. apply keep_all; [exact Kc|]. rewrite <- H1. exact H2. }
  rewrite (merge_attr_same _ _ Fr k). apply applied_same; [exact Fr|apply keys_filter, D1|apply keys_filter, W|]. intros j. rewrite !get_remove. destruct (String.eqb j _); [reflexivity|]. apply D1.
Qed.
End Merge.

(** * Transposes *)
Section Swap.
Context {V : Type}.
Lemma init_apply (a : attribute V) d : apply_attribute (init_attribute (Dict []) a) d = apply_attribute a d.
Proof. destruct a as [[|i e]|f]; reflexivity. Qed.
Lemma applied_init (l : list (attribute V)) : forall d, applied (map (init_attribute (Dict [])) l) d = applied l d.
Proof. induction l as [|a l IH]; intros d; cbn; [reflexivity|]. rewrite init_apply. apply IH. Qed.
Lemma is_dict_init (a : attribute V) : is_dict (init_attribute (Dict []) a) = is_dict a.
Proof. destruct a as [[|i e]|f]; reflexivity. Qed.
Lemma equal_propagate (o p : oper V) c d : equal_oper o p -> propagate o c d = propagate p c d.
Proof. intros (_ & A & _ & C). unfold propagate. rewrite C, A. reflexivity. Qed.
Lemma merge_init (l : list (attribute V)) : equal_attribute (merge_attr (map (init_attribute (Dict [])) l)) (merge_attr l).
Proof.
  intros d. unfold merge_attr. assert (E : forallb is_dict (map (init_attribute (Dict [])) l) = forallb is_dict l) by (induction l as [|a l IH]; cbn; [reflexivity|rewrite is_dict_init, IH; reflexivity]).
  rewrite E. destruct (forallb is_dict l); cbn [apply_attribute].
  - fold (applied (map (init_attribute (Dict [])) l) []). rewrite applied_init. reflexivity.
  - apply applied_init.
Qed.
Lemma swap_composition (ops : list (oper V)) : equal_oper (swap (merge_composition ops)) (merge_composition (rev (map swap ops))).
Proof.
  assert (M : forall (f : oper V -> attribute V) (g : oper V -> attribute V) l, (forall o, f (swap o) = init_attribute (Dict []) (g o)) -> map f (map swap l) = map (init_attribute (Dict [])) (map g l)).
  { intros f g l H. rewrite !map_map. apply map_ext, H. }
  unfold equal_oper, swap at 1 3 5 7, merge_composition. cbn [attrin attrout classin classout]. rewrite rev_involutive, <- map_rev. repeat split.
  - intros d. rewrite init_apply. rewrite (M attrin attrout) by reflexivity. symmetry. apply merge_init.
  - intros d. rewrite init_apply. rewrite (M attrout attrin) by reflexivity. symmetry. apply merge_init.
  - rewrite map_map. reflexivity.
  - rewrite map_map. reflexivity.
Qed.
Lemma swap_swap (o : oper V) : equal_oper (swap (swap o)) o.
Proof. unfold equal_oper, swap. cbn [attrin attrout classin classout]. repeat split; intros d; rewrite !init_apply; reflexivity. Qed.
Lemma same_same (o : oper V) : equal_oper (same o) o.
Proof. unfold equal_oper, same. cbn [attrin attrout classin classout]. repeat split; intros d; rewrite !init_apply; reflexivity. Qed.
End Swap.

(** * Properties *)
Section Sorted.
Context {V : Type}.
Lemma leb_trans : forall a b c, String.leb a b = true -> String.leb b c = true -> String.leb a c = true.
Proof.
  unfold String.leb. induction a as [|x a IH]; intros [|y b] [|z c] H G; cbn [String.compare] in *; try reflexivity; try discriminate.
  unfold Ascii.compare in *. destruct (N.compare_spec (N_of_ascii x) (N_of_ascii y)) as [E|E|E]; [| |discriminate]; destruct (N.compare_spec (N_of_ascii y) (N_of_ascii z)) as [F|F|F]; try discriminate.
  - rewrite E, F, N.compare_refl. apply (IH b c); assumption.
  - destruct (N.compare_spec (N_of_ascii x) (N_of_ascii z)); [lia|reflexivity|lia].
  - destruct (N.compare_spec (N_of_ascii x) (N_of_ascii z)); [lia|reflexivity|lia].
  - destruct (N.compare_spec (N_of_ascii x) (N_of_ascii z)); [lia|reflexivity|lia].
Qed.
Lemma leb_refl a : String.leb a a = true. Proof. destruct (String.leb_total a a); assumption. Qed.
Fixpoint sorted (d : dict V) : Prop := match d with [] => True | i :: d => Forall (fun j => String.leb (fst i) (fst j) = true) d /\ sorted d end.
Lemma insert_sorted i d : sorted d -> sorted (insert i d).
Proof.
  induction d as [|j d IH]; cbn [insert sorted]; [auto|]. intros [H S]. destruct (String.leb (fst i) (fst j)) eqn:L; cbn [sorted].
  - split; [|auto]. constructor; [exact L|]. eapply Forall_impl; [|exact H]. intros k Hk. apply (leb_trans _ _ _ L Hk).
  - split; [|apply IH, S]. apply Forall_forall. intros k Hk. apply (Permutation_in _ (insert_perm i d)) in Hk. destruct Hk as [<-|Hk]; [destruct (String.leb_total (fst i) (fst j)); [congruence|assumption]|]. rewrite Forall_forall in H. apply H, Hk.
Qed.
Lemma sort_sorted d : sorted (sort d).
Proof. induction d as [|i d IH]; cbn [sort fold_right]; [exact I|]. apply insert_sorted, IH. Qed.
Lemma fold_set_other (c : class V) p : forall (l o : dict V), Forall (fun i => storage c (fst i) <> p) l -> get (fold_left (fun o (i : string * V) => set_attribute c o (fst i) (snd i)) l o) p = get o p.
Proof.
  induction l as [|i l IH]; intros o F; cbn [fold_left]; [reflexivity|]. apply Forall_cons_iff in F. destruct F as [N F]. rewrite IH by exact F. unfold set_attribute. fold (storage c (fst i)). rewrite get_put. destruct (String.eqb_spec (storage c (fst i)) p); [contradiction|reflexivity].
Qed.
Lemma set_attributes_last (c : class V) old d k v : well_formed d -> get d k = Some v -> (forall k', get d k' <> None -> k' <> k -> storage c k' = storage c k -> String.leb k k' = false) ->
  get (set_attributes c old d) (storage c k) = Some v.
Proof.
  intros W E H. unfold set_attributes. assert (P := sort_perm d). assert (S := sort_sorted d). assert (Ws : well_formed (sort d)) by (unfold well_formed, keys in *; apply (Permutation_NoDup (l := map fst d)); [apply Permutation_sym, Permutation_map, P|exact W]).
  apply get_in in E; [|exact W]. apply (Permutation_in _ (Permutation_sym P)) in E. assert (H' : forall k', In k' (keys (sort d)) -> k' <> k -> storage c k' = storage c k -> String.leb k k' = false).
  { intros k' I. apply H. apply in_keys. unfold keys in *. apply (Permutation_in _ (Permutation_map fst P)), I. }
  clear H P W. revert old. induction (sort d) as [|i l IH]; intros old; [destruct E|]. cbn [fold_left]. cbn [sorted] in S. destruct S as [F S]. unfold well_formed in *. cbn [keys map] in *. apply NoDup_cons_iff in Ws. destruct Ws as [N Ws].
  destruct E as [->|E].
  - rewrite fold_set_other.
    + cbn [fst snd]. unfold set_attribute. fold (storage c k). rewrite get_put, String.eqb_refl. reflexivity.
    + apply Forall_forall. intros j Hj Ej. rewrite Forall_forall in F. specialize (F j Hj). cbn [fst] in *. rewrite H' in F; [discriminate|right; apply in_map, Hj| |exact Ej]. intros Ek. apply N. rewrite <- Ek. apply in_map, Hj.
  - apply IH; [exact E|exact S|exact Ws|]. intros k' I. apply H'. right. exact I.
Qed.
(** the names that begin with an underscore, and those that do not *)
Lemma underscore a s t : (95 < N_of_ascii a)%N -> String.leb (String a s) (String "_" t) = false.
Proof. intros H. unfold String.leb. cbn [String.compare]. unfold Ascii.compare. change (N_of_ascii "_") with 95%N. destruct (N.compare_spec (N_of_ascii a) 95); [lia|lia|reflexivity]. Qed.
End Sorted.

(** * The argument out *)
Section Out.
Context {V : Type} (ndarray ndarraywrap : class V) (known : class V -> Prop) (W : world ndarray ndarraywrap known) (S : forall c, known c -> simple c).
Notation call := (call ndarray ndarraywrap).
Lemma call_out prop x o c d : prop (o_class x) (o_dict x) = (c, d) -> known c -> well_formed d -> array_ok ndarray known o ->
  exists r, call prop x None = Ok (r, None) /\
  (o_class o = ndarray -> call prop x (Some o) = Ok (r, Some o)) /\
  (o_class o <> ndarray -> o_class r <> ndarray -> exists r', call prop x (Some o) = Ok (r', Some r') /\ o_class r' = o_class r /\ forall k, get (o_dict r') k = match get (o_dict r) k with Some v => Some v | None => get (o_dict o) k end) /\
  (o_class o <> ndarray -> o_class r = ndarray -> call prop x (Some o) = Raise TypeError).
Proof.
  intros E Kc Wd Ao. destruct (call_none ndarray ndarraywrap known W prop x c d E Kc Wd (S _ (wrapped_known _ _ _ W c d Kc))) as (r & Er & Cr & Dr & Ar). exists r. split; [exact Er|].
  assert (Kn : known ndarray) by apply (w_known _ _ _ W). pose proof (wrapped_known _ _ _ W c d Kc) as Kw. destruct (S _ Kw) as [P F].
  assert (Eq : forall c c', known c -> known c' -> same_class c c' = true <-> c = c') by (intros; apply (same_iff ndarray ndarraywrap known W); assumption).
  unfold AttrModel.call in *. rewrite E in *. fold (wrapped ndarray ndarraywrap c d) in *. set (c1 := wrapped ndarray ndarraywrap c d) in *. injection Er as Er. split; [|split].
  - intros Eo. assert (same_class (o_class o) ndarray = true) as -> by (apply Eq; auto; apply Ao). rewrite Er. reflexivity.
  - intros No Nr. destruct (same_class (o_class o) ndarray) eqn:So; [apply Eq in So; [contradiction|apply Ao|exact Kn]|]. destruct (same_class (o_class o) c1) eqn:S1.
    + apply Eq in S1; [|apply Ao|exact Kw]. eexists. split; [reflexivity|]. cbn [o_class o_dict]. split; [congruence|]. intros k. rewrite set_attributes_simple by assumption. rewrite Dr. reflexivity.
    + destruct (same_class c1 ndarray) eqn:S2; [apply Eq in S2; auto; congruence|]. eexists. split; [reflexivity|]. cbn [o_class o_dict]. split; [congruence|]. intros k. rewrite set_attributes_simple by assumption. rewrite F, Dr. reflexivity.
  - intros No Nr. destruct (same_class (o_class o) ndarray) eqn:So; [apply Eq in So; [contradiction|apply Ao|exact Kn]|]. assert (c1 = ndarray) as E1 by congruence. destruct (same_class (o_class o) c1) eqn:S1; [rewrite E1 in S1; congruence|].
    assert (same_class c1 ndarray = true) as -> by (apply Eq; auto). reflexivity.
Qed.
Lemma call_expected o x e : regular known o -> attrout o = Dict e -> array_ok ndarray known x ->
  exists r, call (propagate o) x None = Ok (r, None) /\ (forall k, get (o_dict r) k = expected o x e k) /\
  o_class r = let c := match classout o with Some c => c | None => o_class x end in if same_class c ndarray && negb (match o_dict r with [] => true | _ => false end) then ndarraywrap else c.
Proof.
  intros R Ee Ax. destruct (call_none ndarray ndarraywrap known W (propagate o) x (fst (propagate o (o_class x) (o_dict x))) (snd (propagate o (o_class x) (o_dict x)))) as (r & Er & Cr & Dr & Ar).
  - apply surjective_pairing.
  - apply propagate_known; [exact R|apply Ax].
  - apply (propagate_wf known); [exact R|apply Ax].
  - apply S, (wrapped_known _ _ _ W), propagate_known; [exact R|apply Ax].
  - exists r. split; [exact Er|]. split.
    + intros k. rewrite Dr. unfold propagate. cbn [snd]. rewrite Ee. cbn [apply_attribute]. destruct R as (Re & _). rewrite Ee in Re. rewrite get_update_wf by exact Re. unfold expected. destruct (get e k); [reflexivity|]. rewrite get_remove. destruct (String.eqb k _); [reflexivity|].
      destruct (classout o) as [c|]; [|reflexivity]. unfold same_class. destruct (Nat.eqb _ _); cbn [negb andb]; [reflexivity|]. apply get_keep.
    + rewrite Cr. unfold wrapped. change (fst (propagate o (o_class x) (o_dict x))) with (match classout o with Some c => c | None => o_class x end). cbv zeta. f_equal.
      pose proof (same_empty _ _ Dr) as Em. destruct (o_dict r), (snd (propagate o (o_class x) (o_dict x))); try reflexivity; exfalso; [destruct Em as [Em _]|destruct Em as [_ Em]]; specialize (Em eq_refl); discriminate.
Qed.
End Out.
