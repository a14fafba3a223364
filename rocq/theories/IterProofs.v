From Verif Require Import Base IterModel IterSpec.
From Coq Require Import Permutation.

Section IterProofs.
Context {V : Type}.
Implicit Types (a : algo V) (s : state V).

(** ** Writing *)
Lemma writes_other (h : nat -> V) l x : ~ In x (map fst l) -> writes h l x = h x.
Proof.
  revert h; induction l as [|[b v] l IH]; intros h Hx; simpl in *; auto.
  rewrite IH by tauto. unfold write. destruct (Nat.eqb x b) eqn:E; auto. apply Nat.eqb_eq in E; subst; tauto.
Qed.
Lemma map_fst_combine {A B} (l : list A) (l' : list B) x : In x (map fst (combine l l')) -> In x l.
Proof. intros H. apply in_map_iff in H as ([u v] & <- & H). apply in_combine_l in H; auto. Qed.
Lemma map_fst_combine_eq {A B} (l : list A) (l' : list B) : length l = length l' -> map fst (combine l l') = l.
Proof. revert l'; induction l; intros [|b l'] H; simpl in *; try discriminate; auto. f_equal; auto. Qed.
Lemma writes_combine (h : nat -> V) l vs : NoDup l -> length l = length vs -> map (writes h (combine l vs)) l = vs.
Proof.
  intros Hn. revert h vs; induction Hn as [|x l Hx Hn IH]; intros h [|v vs] L; simpl in *; try discriminate; auto.
  rewrite IH by lia. f_equal. rewrite writes_other.
  - unfold write. rewrite Nat.eqb_refl; auto.
  - intros H. apply map_fst_combine in H; auto.
Qed.
Lemma map_writes_other (h : nat -> V) l vs m : (forall x, In x m -> ~ In x l) -> map (writes h (combine l vs)) m = map h m.
Proof.
  intros H. apply map_ext_in. intros x Hx. apply writes_other. intros Hi. apply map_fst_combine in Hi. apply (H x); auto.
Qed.
Lemma mapmap_writes_other (h : nat -> V) l vs m : (forall x, In x (concat m) -> ~ In x l) ->
  map (map (writes h (combine l vs))) m = map (map h) m.
Proof.
  intros H. apply map_ext_in. intros v Hv. apply map_writes_other. intros x Hx. apply H. apply in_concat. eauto.
Qed.

Lemma map_removelast {A B} (f : A -> B) l : map f (removelast l) = removelast (map f l).
Proof. induction l as [|x l IH]; auto. simpl. destruct l; auto. simpl in *. f_equal; auto. Qed.
Lemma combine_map {A B C D} (f : A -> C) (g : B -> D) l l' :
  combine (map f l) (map g l') = map (fun p => (f (fst p), g (snd p))) (combine l l').
Proof. revert l'; induction l; intros [|b l']; simpl; auto. f_equal; auto. Qed.

Lemma shift_map (h : nat -> V) (n : list nat) (hs : list (list nat)) :
  map (map h) (map (fun p => removelast (fst p :: snd p)) (combine n hs)) = shift (map h n) (map (map h) hs).
Proof.
  unfold shift. rewrite combine_map, !map_map. apply map_ext. intros [x l]. simpl fst; simpl snd.
  rewrite map_removelast. reflexivity.
Qed.

(** ** The buffers *)
Definition bufs (n : list nat) (hs : list (list nat)) : list nat := concat (map (fun p => fst p :: snd p) (combine n hs)).

Lemma in_bufs n hs x : length n = length hs -> In x (bufs n hs) <-> In x n \/ In x (concat hs).
Proof.
  unfold bufs. revert hs; induction n as [|y n IH]; intros [|h hs] L; simpl in *; try discriminate; [tauto|].
  rewrite !in_app_iff, IH by lia. tauto.
Qed.
Lemma nodup_bufs n hs : length n = length hs -> NoDup (bufs n hs) ->
  NoDup n /\ (forall x, In x (concat hs) -> ~ In x n) /\ NoDup (concat hs).
Proof.
  intros L. assert (P : Permutation (bufs n hs) (n ++ concat hs)).
  { unfold bufs. revert hs L; induction n as [|y n IH]; intros [|h hs] L; simpl in *; try discriminate; auto.
    apply perm_skip. rewrite IH by lia. rewrite !app_assoc. apply Permutation_app_tail, Permutation_app_comm. }
  intros H. apply (Permutation_NoDup P) in H. clear P L. revert H. generalize (concat hs) as m. intros m.
  induction n as [|y n IH]; simpl; intros H.
  - split; [constructor|]. split; auto.
  - inversion H; subst. apply IH in H3 as (A & B & C). rewrite in_app_iff in H2. split; [constructor; tauto|]. split; auto.
    intros x Hx [->|Hn]; [tauto|]. apply (B x); auto.
Qed.

Lemma last_removelast (x : nat) l d : Permutation (last (x :: l) d :: removelast (x :: l)) (x :: l).
Proof.
  pose proof (app_removelast_last (l := x :: l) d ltac:(discriminate)) as E.
  rewrite E at 3. rewrite <- Permutation_cons_append. reflexivity.
Qed.

Lemma bufs_update n hs : length n = length hs ->
  Permutation (bufs (map (fun p => last (fst p :: snd p) 0) (combine n hs))
                    (map (fun p => removelast (fst p :: snd p)) (combine n hs))) (bufs n hs).
Proof.
  unfold bufs. revert hs; induction n as [|y n IH]; intros [|h hs] L; cbn [length combine map fst snd concat] in *; try discriminate; auto.
  apply Permutation_app; [apply last_removelast|]. apply IH; lia.
Qed.
Lemma combine_length_eq {A B} (l : list A) (l' : list B) : length l = length l' -> length (combine l l') = length l'.
Proof. rewrite combine_length. lia. Qed.

(** ** The invariant *)
Definition wf a : Prop :=
  (inplace_recursion a = true -> allocate_new_state a = false) /\
  (inplace_recursion a = false -> allocate_new_state a = false -> reuse_initial_state a = false) /\ good_algo a.

Lemma wf_set a : good_algo a -> wf (set_buffer_handling a).
Proof.
  intros H. split; [|split]; simpl; auto.
  - intros ->; auto.
  - intros -> ->; auto.
Qed.

Record Inv (a : algo V) (h0 : list (list V)) (s : state V) : Prop := {
  i_len : length (news s) = length (init s) /\ length (hists s) = length (init s);
  i_bound : (forall x, In x (concat (hists s)) -> x < top s) /\ (forall x, In x (concat (init s)) -> x < top s);
  i_news : allocate_new_state a = true -> forall x, In x (news s) -> x < top s;
  i_nodup : allocate_new_state a = true -> NoDup (bufs (news s) (hists s));
  i_nodup2 : inplace_recursion a = true -> NoDup (concat (hists s));
  i_disj : reuse_initial_state a = false -> allocate_new_state a = true ->
           forall x, In x (bufs (news s) (hists s)) -> ~ In x (concat (init s));
  i_disj2 : reuse_initial_state a = false -> inplace_recursion a = true ->
            forall x, In x (concat (hists s)) -> ~ In x (concat (init s));
  i_reuse : reuse_initial_state a = true -> niter s = order a - 1 ->
            (allocate_new_state a = true -> NoDup (bufs (news s) (init s))) /\
            (inplace_recursion a = true -> NoDup (concat (init s)));
  i_init : reuse_initial_state a = false \/ niter s = order a - 1 -> map (map (heap s)) (init s) = h0;
  i_one : inplace_recursion a = true -> forall v, In v (hists s) \/ In v (init s) -> length v <= 1;
  i_one' : inplace_recursion a = true -> forall v, In v (init s) -> length v = 1;
  i_niter : order a - 1 <= niter s
}.

(** s is in accordance with the plain values p. *)
Definition related a h0 s (p : pure V) : Prop :=
  Inv a h0 s /\ niter s = pn p /\ ticks s = pt p /\
  match ph p with
  | None => niter s = order a - 1
  | Some h => values s = h /\ (inplace_recursion a = true -> forall v, In v (hists s) -> length v = 1)
  end.

Lemma no_dup_iff l : no_dup l = true <-> NoDup l.
Proof.
  induction l as [|x l IH]; simpl; [split; auto; constructor|]. rewrite andb_true_iff, negb_true_iff, IH. split.
  - intros [H1 H2]. constructor; auto. intros Hx. assert (existsb (Nat.eqb x) l = true); [|congruence].
    apply existsb_exists. exists x. split; auto. apply Nat.eqb_refl.
  - intros H. inversion H; subst. split; auto. apply not_true_iff_false. intros Hx. apply existsb_exists in Hx as (y & Hy & E).
    apply Nat.eqb_eq in E; subst; auto.
Qed.

Lemma concat_nils {A B} (l : list A) : concat (map (fun _ => @nil B) l) = [].
Proof. induction l; simpl; auto. Qed.

Lemma bufs_nils {A} n (l : list A) : length n = length l -> bufs n (map (fun _ => []) l) = n.
Proof.
  unfold bufs. revert l; induction n as [|x n IH]; intros [|y l] L; simpl in *; try discriminate; auto. rewrite IH by lia; auto.
Qed.
Lemma nodup_bufs_intro n hs : length n = length hs -> NoDup n -> NoDup (concat hs) -> (forall x, In x n -> ~ In x (concat hs)) ->
  NoDup (bufs n hs).
Proof.
  intros L Hn Hh Hd. assert (P : Permutation (n ++ concat hs) (bufs n hs)).
  { unfold bufs. clear Hn Hh Hd. revert hs L; induction n as [|y n IH]; intros [|h hs] L; simpl in *; try discriminate; auto.
    apply perm_skip. rewrite <- IH by lia. rewrite !app_assoc. apply Permutation_app_tail, Permutation_app_comm. }
  apply (Permutation_NoDup P). clear P L. revert Hh Hd. generalize (concat hs) as m. intros m Hm Hd.
  induction Hn; simpl; auto. constructor.
  - rewrite in_app_iff. intros [?|?]; auto. apply (Hd x); simpl; auto.
  - apply IHHn. intros y Hy. apply Hd; simpl; auto.
Qed.

Lemma new_related a h t ini s : wf a -> good_init a t ini -> new_algo a h t ini = Ok s ->
  related a (map (map h) ini) s (pure0 a).
Proof.
  intros [W1 [W2 [W3 W4]]] [G1 G2] H. unfold new_algo in H.
  destruct (reuse_initial_state a && negb (no_dup (concat ini))) eqn:E; [discriminate|].
  assert (ND : reuse_initial_state a = true -> NoDup (concat ini)).
  { intros Hr. rewrite Hr in E. simpl in E. apply no_dup_iff. destruct (no_dup _); auto. }
  assert (Hone : inplace_recursion a = true -> forall v, In v ini -> length v = 1).
  { intros Hi v Hv. rewrite (G1 v Hv), Hi; auto. }
  destruct (allocate_new_state a) eqn:Ea; injection H as <-; (split; [|repeat split; reflexivity]); constructor; simpl; auto.
  - rewrite seq_length, map_length; auto.
  - rewrite concat_nils. split; [intros x []|]. intros x Hx. specialize (G2 x Hx); lia.
  - intros _ x Hx. apply in_seq in Hx; lia.
  - intros _. rewrite bufs_nils by apply seq_length. apply seq_NoDup.
  - rewrite concat_nils. intros; constructor.
  - intros _ _ x Hx. rewrite bufs_nils in Hx by apply seq_length. apply in_seq in Hx. intros Hc. specialize (G2 x Hc). lia.
  - rewrite concat_nils. intros _ _ x [].
  - intros Hr _. split; auto. intros _. apply nodup_bufs_intro; auto using seq_NoDup, seq_length.
    intros x Hx Hc. apply in_seq in Hx. specialize (G2 x Hc). lia.
  - intros Hi v [Hv|Hv]; [|rewrite (Hone Hi v Hv); auto]. apply in_map_iff in Hv as (? & <- & _); simpl; lia.
  - rewrite !map_length; auto.
  - rewrite concat_nils. split; auto. intros x [].
  - congruence.
  - congruence.
  - rewrite concat_nils. intros; constructor.
  - congruence.
  - rewrite concat_nils. intros _ _ x [].
  - intros Hr _. split; auto. congruence.
  - intros Hi v [Hv|Hv]; [|rewrite (Hone Hi v Hv); auto]. apply in_map_iff in Hv as (? & <- & _); simpl; lia.
Qed.

Lemma app_inj_length {A} (a b c d : list A) : a ++ b = c ++ d -> length a = length c -> a = c /\ b = d.
Proof.
  revert c; induction a as [|x a IH]; intros [|y c] H L; simpl in *; try discriminate; auto.
  injection H as -> H. apply IH in H as [-> ->]; auto.
Qed.
Lemma copies_length t l : length (copies t l) = length l.
Proof. revert t; induction l; intros; simpl; auto. Qed.
Lemma concat_copies t l : concat (copies t l) = seq t (length (concat l)).
Proof. revert t; induction l; intros; simpl; auto. rewrite app_length, seq_app, IHl; auto. Qed.
Lemma copies_in t l v : In v (copies t l) -> exists w, In w l /\ length v = length w.
Proof.
  revert t; induction l as [|w l IH]; intros t; simpl; [tauto|]. intros [<-|H].
  - exists w. rewrite seq_length; auto.
  - apply IH in H as (w' & ? & ?). eauto.
Qed.
Lemma map_copies (g : nat -> V) t l vs : map g (seq t (length (concat l))) = vs ->
  forall h, vs = map h (concat l) -> map (map g) (copies t l) = map (map h) l.
Proof.
  intros <- h. revert t; induction l as [|v l IH]; intros t H; simpl in *; auto.
  rewrite app_length, seq_app, !map_app in H.
  assert (L : length (map g (seq t (length v))) = length (map h v)) by (rewrite !map_length, seq_length; auto).
  apply app_inj_length in H; auto. destruct H as [H1 H2]. f_equal; auto.
Qed.

Lemma initialize_ok a h0 s : wf a -> Inv a h0 s -> (order a - 1 <? niter s) && reuse_initial_state a = false ->
  exists s', initialize a s = Ok s' /\ related a h0 s' {| pn := order a - 1; ph := Some h0; pt := ticks s |}.
Proof.
  intros [W1 [W2 [W3 W4]]] I E. unfold initialize. rewrite E.
  assert (Hi : map (map (heap s)) (init s) = h0).
  { apply (i_init _ _ _ I). destruct (reuse_initial_state a); auto. right. rewrite andb_true_r in E. apply Nat.ltb_ge in E.
    pose proof (i_niter _ _ _ I). lia. }
  assert (Hn : reuse_initial_state a = true -> niter s = order a - 1).
  { intros Hr. rewrite Hr, andb_true_r in E. apply Nat.ltb_ge in E. pose proof (i_niter _ _ _ I). lia. }
  destruct (i_len _ _ _ I) as [L1 L2]. destruct (i_bound _ _ _ I) as [B1 B2].
  destruct ((inplace_recursion a || allocate_new_state a) && negb (reuse_initial_state a)) eqn:Ec; eexists; (split; [reflexivity|]).
  - apply andb_true_iff in Ec as [Ec1 Ec2]. apply negb_true_iff in Ec2.
    set (N := length (concat (init s))).
    assert (HW : forall m, (forall x, In x (concat m) -> x < top s) ->
       map (map (copy_all (heap s) (top s) (init s))) m = map (map (heap s)) m).
    { intros m Hm. unfold copy_all. apply mapmap_writes_other. intros x Hx Hs. apply in_seq in Hs. specialize (Hm x Hx). lia. }
    assert (HC : map (map (copy_all (heap s) (top s) (init s))) (copies (top s) (init s)) = map (map (heap s)) (init s)).
    { apply map_copies with (vs := map (heap s) (concat (init s))); auto. unfold copy_all.
      apply writes_combine; [apply seq_NoDup|]. rewrite seq_length, map_length; auto. }
    assert (CB : forall x, In x (concat (copies (top s) (init s))) -> top s <= x < top s + N).
    { intros x Hx. rewrite concat_copies in Hx. apply in_seq in Hx. unfold N; lia. }
    split; [|simpl; split; [auto|split; [auto|split]]].
    + constructor; simpl; auto.
      * rewrite copies_length; auto.
      * split; intros x Hx; [apply CB in Hx; unfold N in Hx; lia|]. specialize (B2 x Hx); lia.
      * intros Ha x Hx. pose proof (i_news _ _ _ I Ha x Hx). lia.
      * intros Ha. apply nodup_bufs_intro; [rewrite copies_length; auto| | |].
        -- apply (nodup_bufs (news s) (hists s)); [lia|]. apply (i_nodup _ _ _ I Ha).
        -- rewrite concat_copies; apply seq_NoDup.
        -- intros x Hx Hc. pose proof (i_news _ _ _ I Ha x Hx). apply CB in Hc. lia.
      * intros _. rewrite concat_copies; apply seq_NoDup.
      * intros Hr Ha x Hx Hc. apply in_bufs in Hx; [|rewrite copies_length; auto]. destruct Hx as [Hx|Hx].
        -- apply (i_disj _ _ _ I Hr Ha x); auto. apply in_bufs; [lia|auto].
        -- apply CB in Hx. specialize (B2 x Hc). lia.
      * intros Hr Hp x Hx Hc. apply CB in Hx. specialize (B2 x Hc). lia.
      * congruence.
      * intros _. rewrite HW; auto.
      * intros Hp v [Hv|Hv]; [|apply (i_one _ _ _ I Hp v); auto]. apply copies_in in Hv as (w & Hw & ->). apply (i_one _ _ _ I Hp w); auto.
      * apply (i_one' _ _ _ I).
    + unfold values; simpl. rewrite HC; auto.
    + intros Hp v Hv. apply copies_in in Hv as (w & Hw & ->). apply (i_one' _ _ _ I Hp w); auto.
  - split; [|simpl; split; [auto|split; [auto|split]]].
    + assert (R : (inplace_recursion a = true \/ allocate_new_state a = true) -> reuse_initial_state a = true).
      { intros [Hx|Hx]; rewrite Hx in Ec; [|rewrite orb_true_r in Ec]; simpl in Ec; apply negb_false_iff in Ec; auto. }
      constructor; simpl; auto.
      * apply (i_news _ _ _ I).
      * intros Ha. apply (i_reuse _ _ _ I); auto.
      * intros Hp. apply (i_reuse _ _ _ I); auto.
      * intros Hr Ha. rewrite R in Hr by auto. discriminate.
      * intros Hr Hp. rewrite R in Hr by auto. discriminate.
      * intros Hr _. apply (i_reuse _ _ _ I); auto.
      * intros Hp v Hv. apply (i_one _ _ _ I Hp v). tauto.
      * apply (i_one' _ _ _ I).
    + unfold values; simpl. auto.
    + apply (i_one' _ _ _ I).
Qed.

Lemma hd_singletons (l : list (list nat)) : (forall v, In v l -> length v = 1) -> concat l = map (hd 0) l.
Proof.
  induction l as [|v l IH]; simpl; intros H; auto. rewrite IH by auto. specialize (H v (or_introl eq_refl)).
  destruct v as [|x [|y v]]; simpl in *; try lia; auto.
Qed.
Lemma singleton_values (g : nat -> V) (l : list (list nat)) vs (h : list (list V)) :
  (forall v, In v l -> length v = 1) -> map g (map (hd 0) l) = vs -> length h = length l -> (forall v, In v h -> length v = 1) ->
  map (map g) l = shift vs h.
Proof.
  intros H <- . unfold shift. revert h; induction l as [|v l IH]; intros [|w h] L Hh; simpl in *; try discriminate; auto.
  rewrite <- IH; auto. f_equal. pose proof (H v (or_introl eq_refl)). pose proof (Hh w (or_introl eq_refl)).
  destruct v as [|x [|y v]], w as [|x' [|y' w]]; simpl in *; try lia; auto.
Qed.

Lemma shift_length vs (h : list (list V)) : length vs = length h -> length (shift vs h) = length h.
Proof. intros. unfold shift. rewrite map_length, combine_length_eq; auto. Qed.

Lemma in_removelast {A} (x : A) l : In x (removelast l) -> In x l.
Proof. induction l as [|y l IH]; simpl; auto. destruct l; simpl in *; tauto. Qed.

(** One iteration. *)
Lemma turn_related a h0 s h t : wf a -> related a h0 s {| pn := niter s; ph := Some h; pt := t |} ->
  related a h0 (fst (turn a s)) (fst (pure_turn a (niter s) h t)) /\ snd (turn a s) = snd (pure_turn a (niter s) h t).
Proof.
  intros W (I & _ & T & Hv & Hs1). simpl in T. pose proof W as [W1 [W2 [W3 W4]]].
  unfold turn, check_stop_conditions, pure_turn. rewrite Hv.
  assert (R0 : related a h0 s {| pn := niter s; ph := Some h; pt := t |}) by (split; simpl; auto).
  destruct (normal_stop a (niter s) h); [split; simpl; auto|].
  destruct (abnormal_stop a (niter s) h); [split; simpl; auto|].
  unfold iterate; simpl. change (values {| heap := heap s; top := top s; news := news s; hists := hists s; init := init s;
                   niter := S (niter s); ticks := ticks s |}) with (values s). rewrite Hv.
  pose proof (W4 (S (niter s)) h) as Lv. destruct (iteration a (S (niter s)) h) as [vs o]; simpl in Lv.
  destruct (i_len _ _ _ I) as [L1 L2]. destruct (i_bound _ _ _ I) as [B1 B2].
  assert (Lh : length h = length (init s)) by (rewrite <- Hv; unfold values; rewrite map_length; auto).
  pose proof (i_niter _ _ _ I) as Ni.
  destruct (inplace_recursion a) eqn:Ep.
  - (* in place *)
    specialize (Hs1 eq_refl).
    assert (Hn : map (hd 0) (hists s) = concat (hists s)) by (symmetry; apply hd_singletons; auto).
    set (g := writes (heap s) (combine (map (hd 0) (hists s)) vs)).
    assert (Hval : map (map g) (hists s) = shift vs h).
    { apply singleton_values; auto; [|lia|].
      - apply writes_combine; [rewrite Hn; apply (i_nodup2 _ _ _ I); auto|]. rewrite map_length; lia.
      - rewrite <- Hv. unfold values. intros v Hx. apply in_map_iff in Hx as (w & <- & Hw). rewrite map_length; auto. }
    assert (I' : Inv a h0 {| heap := g; top := top s; news := news s; hists := hists s; init := init s; niter := S (niter s); ticks := S (ticks s) |}).
    { constructor; simpl; auto; try apply I.
      - intros _ Hc. lia.
      - intros [Hr|Hc]; [|lia]. rewrite <- (i_init _ _ _ I) by auto. apply mapmap_writes_other. intros x Hx Hm. rewrite Hn in Hm.
        apply (i_disj2 _ _ _ I Hr Ep x); auto. }
    destruct o; simpl; (split; [|auto; rewrite T; auto]); unfold update_variables; rewrite ?Ep; (split; [exact I'|simpl; split; [auto|split; [auto|split; [exact Hval|auto]]]]).
  - destruct (allocate_new_state a) eqn:Ea.
    + (* preallocated *)
      destruct (nodup_bufs (news s) (hists s) ltac:(lia) (i_nodup _ _ _ I Ea)) as (N1 & N2 & N3).
      set (g := writes (heap s) (combine (news s) vs)).
      assert (Hnew : map g (news s) = vs) by (apply writes_combine; auto; lia).
      assert (Hold : map (map g) (hists s) = h).
      { rewrite <- Hv. apply mapmap_writes_other. auto. }
      assert (Hini : reuse_initial_state a = false -> map (map g) (init s) = h0).
      { intros Hr. rewrite <- (i_init _ _ _ I) by auto. apply mapmap_writes_other. intros x Hx Hm.
        apply (i_disj _ _ _ I Hr Ea x); auto. apply in_bufs; auto; lia. }
      set (s2 := {| heap := g; top := top s; news := news s; hists := hists s; init := init s; niter := S (niter s); ticks := S (ticks s) |}).
      assert (I2 : Inv a h0 s2).
      { constructor; simpl; auto; try apply I.
        - intros _ Hc. lia.
        - intros [Hr|Hc]; [auto|lia]. }
      assert (PU := bufs_update (news s) (hists s) ltac:(lia)).
      assert (I3 : Inv a h0 (update_variables a s2)).
      { unfold update_variables. rewrite Ep. constructor; simpl; auto; try apply I; try congruence.
        - rewrite !map_length, combine_length_eq by lia. auto.
        - split; auto. intros x Hx. assert (Hb : In x (bufs (news s) (hists s))).
          { apply (Permutation_in _ PU). apply in_bufs; [rewrite !map_length; auto|auto]. }
          apply in_bufs in Hb; [|lia]. destruct Hb as [Hb|Hb]; auto. apply (i_news _ _ _ I Ea x Hb).
        - intros _ x Hx. assert (Hb : In x (bufs (news s) (hists s))).
          { apply (Permutation_in _ PU). apply in_bufs; [rewrite !map_length; auto|auto]. }
          apply in_bufs in Hb; [|lia]. destruct Hb as [Hb|Hb]; auto. apply (i_news _ _ _ I Ea x Hb).
        - intros _. apply (Permutation_NoDup (Permutation_sym PU)). apply (i_nodup _ _ _ I Ea).
        - intros Hr _ x Hx. apply (i_disj _ _ _ I Hr Ea x). apply (Permutation_in _ PU); auto.
        - intros _ Hc. lia.
        - intros [Hr|Hc]; [auto|lia]. }
      assert (HV : values (update_variables a s2) = shift vs h).
      { unfold update_variables, values. rewrite Ep. simpl. rewrite shift_map, Hnew, Hold. reflexivity. }
      destruct o; simpl; (split; [|auto; rewrite T; auto]).
      * split; [exact I3|]. unfold update_variables in *; rewrite Ep in *; simpl. split; [auto|split; [auto|split; [exact HV|congruence]]].
      * split; [exact I3|]. unfold update_variables in *; rewrite Ep in *; simpl. split; [auto|split; [auto|split; [exact HV|congruence]]].
      * split; [exact I2|]. simpl. split; [auto|split; [auto|split; [exact Hold|congruence]]].
    + (* new buffers *)
      pose proof (W2 eq_refl eq_refl) as Hr.
      set (n := length (hists s)) in *. set (g := writes (heap s) (combine (seq (top s) n) vs)).
      assert (Hnew : map g (seq (top s) n) = vs) by (apply writes_combine; [apply seq_NoDup|rewrite seq_length; lia]).
      assert (Hlow : forall m, (forall x, In x (concat m) -> x < top s) -> map (map g) m = map (map (heap s)) m).
      { intros m Hm. apply mapmap_writes_other. intros x Hx Hc. apply in_seq in Hc. specialize (Hm x Hx). lia. }
      assert (Hold : map (map g) (hists s) = h) by (rewrite <- Hv; apply Hlow; auto).
      set (s2 := {| heap := g; top := top s + n; news := seq (top s) n; hists := hists s; init := init s; niter := S (niter s); ticks := S (ticks s) |}).
      assert (I2 : Inv a h0 s2).
      { constructor; simpl; auto; try apply I; try congruence.
        - rewrite seq_length. auto.
        - split; intros x Hx; [specialize (B1 x Hx)|specialize (B2 x Hx)]; lia.
        - intros _. rewrite Hlow by auto. apply (i_init _ _ _ I); auto. }
      assert (I3 : Inv a h0 (update_variables a s2)).
      { unfold update_variables. rewrite Ep. constructor; simpl; auto; try apply I; try congruence.
        - rewrite !map_length, combine_length_eq by (rewrite seq_length; lia). auto.
        - split; [|intros x Hx; specialize (B2 x Hx); lia]. intros x Hx.
          assert (Hb : In x (bufs (seq (top s) n) (hists s))).
          { apply (Permutation_in _ (bufs_update (seq (top s) n) (hists s) ltac:(rewrite seq_length; lia))).
            apply in_bufs; [rewrite !map_length; auto|auto]. }
          apply in_bufs in Hb; [|rewrite seq_length; lia]. destruct Hb as [Hb|Hb]; [apply in_seq in Hb; lia|].
          specialize (B1 x Hb); lia.
        - intros _. rewrite Hlow by auto. apply (i_init _ _ _ I); auto. }
      assert (HV : values (update_variables a s2) = shift vs h).
      { unfold update_variables, values. rewrite Ep. simpl. rewrite shift_map, Hnew, Hold. reflexivity. }
      destruct o; simpl; (split; [|auto; rewrite T; auto]).
      * split; [exact I3|]. unfold update_variables in *; rewrite Ep in *; simpl. split; [auto|split; [auto|split; [exact HV|congruence]]].
      * split; [exact I3|]. unfold update_variables in *; rewrite Ep in *; simpl. split; [auto|split; [auto|split; [exact HV|congruence]]].
      * split; [exact I2|]. simpl. split; [auto|split; [auto|split; [exact Hold|congruence]]].
Qed.

Lemma pure_turn_some a n h t : exists h', ph (fst (pure_turn a n h t)) = Some h'.
Proof.
  unfold pure_turn. destruct (normal_stop a n h); simpl; eauto. destruct (abnormal_stop a n h); simpl; eauto.
  destruct (iteration a (S n) h) as [vs []]; simpl; eauto.
Qed.

Lemma loop_related a h0 k : wf a -> forall s h t, related a h0 s {| pn := niter s; ph := Some h; pt := t |} ->
  related a h0 (fst (loop a k s)) (fst (pure_loop a k (niter s) h t)) /\ snd (loop a k s) = snd (pure_loop a k (niter s) h t).
Proof.
  intros W. induction k as [|k IH]; intros s h t R; simpl; [auto|].
  destruct (turn_related a h0 s h t W R) as [R1 E1]. destruct (pure_turn_some a (niter s) h t) as [h' Hh].
  destruct (turn a s) as [s1 o1], (pure_turn a (niter s) h t) as [p1 o2]. simpl in *. subst o2.
  destruct o1; simpl; [auto|]. rewrite Hh.
  destruct p1 as [n' ph' t']; simpl in *; subst ph'. pose proof (proj1 (proj2 R1)) as Hn. simpl in Hn. subst n'.
  apply IH; auto.
Qed.

Lemma next_related a h0 k s p : wf a -> related a h0 s p ->
  related a h0 (fst (next a k s)) (fst (pure_next a h0 k p)) /\ snd (next a k s) = snd (pure_next a h0 k p).
Proof.
  intros W R. pose proof R as (I & Hn & Ht & Hh). unfold next, pure_next. rewrite <- Hn, <- Ht.
  destruct (niter s =? order a - 1) eqn:E.
  - apply Nat.eqb_eq in E. destruct (initialize_ok a h0 s W I) as (s' & Es & R').
    { rewrite E. rewrite Nat.ltb_irrefl. reflexivity. }
    rewrite Es. pose proof (proj1 (proj2 R')) as Hn'. simpl in Hn'. rewrite E, <- Hn'.
    apply loop_related; auto. rewrite Hn'. auto.
  - apply Nat.eqb_neq in E. destruct p as [n [h|] t]; simpl in *; [|congruence]. subst n t. apply loop_related; auto.
Qed.

Lemma swallow_related a h0 r q : related a h0 (fst r) (fst q) -> snd r = snd q ->
  related a h0 (fst (swallow r)) (fst (pure_swallow q)) /\ snd (swallow r) = snd (pure_swallow q).
Proof. destruct r as [s o], q as [p o']; simpl; intros R <-. destruct o as [[]|]; simpl; auto. Qed.

Lemma run_related a h0 n s p : wf a -> related a h0 s p ->
  related a h0 (fst (run a n s)) (fst (pure_run a h0 n p)) /\ snd (run a n s) = snd (pure_run a h0 n p).
Proof.
  intros W R. pose proof R as (I & Hn & Ht & Hh). unfold run, pure_run. rewrite Hn.
  destruct (order a - 1 <? pn p); [simpl; auto|]. apply swallow_related; apply next_related; auto.
Qed.

Lemma exec_related a h0 c s p : wf a -> related a h0 s p ->
  related a h0 (fst (exec a c s)) (fst (pure_exec a h0 c p)) /\ snd (exec a c s) = snd (pure_exec a h0 c p).
Proof.
  intros W R. pose proof R as (I & Hn & Ht & Hh). destruct c as [n|n| |n]; simpl.
  - apply next_related; auto.
  - apply run_related; auto.
  - unfold cont. rewrite Hn. destruct (pn p =? 0); [simpl; auto|]. apply swallow_related; apply next_related; auto.
  - unfold restart. rewrite <- Hn. destruct ((order a - 1 <? niter s) && reuse_initial_state a) eqn:E.
    + unfold initialize. rewrite E. simpl; auto.
    + destruct (initialize_ok a h0 s W I E) as (s' & -> & R'). apply run_related; auto. rewrite <- Ht. auto.
Qed.

Lemma execs_related a h0 cs : wf a -> forall s p, related a h0 s p ->
  related a h0 (fst (execs a cs s)) (fst (pure_execs a h0 cs p)) /\ snd (execs a cs s) = snd (pure_execs a h0 cs p).
Proof.
  intros W. induction cs as [|c cs IH]; intros s p R; simpl; [auto|].
  destruct (exec_related a h0 c s p W R) as [R1 E1]. destruct (exec a c s) as [s1 o1], (pure_exec a h0 c p) as [p1 o2]. simpl in *. subst o2.
  destruct (IH s1 p1 R1) as [R2 E2]. destruct (execs a cs s1), (pure_execs a h0 cs p1). simpl in *. subst. auto.
Qed.

Theorem history (a0 : algo V) (h : nat -> V) t ini s cs : let a := set_buffer_handling a0 in let h0 := map (map h) ini in
  good_algo a0 -> good_init a0 t ini -> new_algo a h t ini = Ok s ->
  let r := execs a cs s in let q := pure_execs a h0 cs (pure0 a) in
  snd r = snd q /\ niter (fst r) = pn (fst q) /\ forall v, ph (fst q) = Some v -> values (fst r) = v.
Proof.
  intros a h0 G GI N r q. assert (W : wf a) by (apply wf_set; auto).
  pose proof (new_related a h t ini s W GI N) as R. destruct (execs_related a h0 cs W s (pure0 a) R) as [(I & Hn & Ht & Hh) E].
  fold r q in Hn, Hh, E. split; [exact E|]. split; [exact Hn|]. intros v Hv. rewrite Hv in Hh. apply Hh.
Qed.

(** The initial arrays are not modified unless they may be reused. *)
Theorem initial_untouched (a0 : algo V) (h : nat -> V) t ini s cs : let a := set_buffer_handling a0 in
  good_algo a0 -> good_init a0 t ini -> new_algo a h t ini = Ok s -> reuse_initial_state a0 = false ->
  map (map (heap (fst (execs a cs s)))) (init (fst (execs a cs s))) = map (map h) ini.
Proof.
  intros a G GI N Hr. assert (W : wf a) by (apply wf_set; auto).
  pose proof (new_related a h t ini s W GI N) as R. destruct (execs_related a _ cs W s (pure0 a) R) as [(I & _) _].
  apply (i_init _ _ _ I). left. simpl. rewrite Hr. destruct (inplace_recursion a0), (allocate_new_state a0); auto.
Qed.

(** ** Consequences, on plain values *)
Lemma pure_loop_some a k n h t : exists h', ph (fst (pure_loop a k n h t)) = Some h'.
Proof.
  revert n h t; induction k as [|k IH]; intros n h t; simpl; eauto.
  destruct (pure_turn_some a n h t) as [h' Hh]. destruct (pure_turn a n h t) as [p [e|]]; simpl in *; eauto. rewrite Hh. auto.
Qed.

Lemma pure_loop_add a k m : forall n h t,
  pure_loop a (k + m) n h t =
  match pure_loop a k n h t with
  | (p, None) => match ph p with Some h' => pure_loop a m (pn p) h' (pt p) | None => (p, None) end
  | r => r
  end.
Proof.
  induction k as [|k IH]; intros n h t; simpl; auto.
  destruct (pure_turn_some a n h t) as [h' Hh]. destruct (pure_turn a n h t) as [p [e|]]; simpl in *; auto. rewrite Hh. auto.
Qed.

Lemma pure_turn_grows a n h t p o : pure_turn a n h t = (p, o) -> n <= pn p /\ (o = None -> n < pn p).
Proof.
  unfold pure_turn. destruct (normal_stop a n h); [intros H; injection H as <- <-; simpl; split; [lia|discriminate]|].
  destruct (abnormal_stop a n h); [intros H; injection H as <- <-; simpl; split; [lia|discriminate]|].
  destruct (iteration a (S n) h) as [vs []]; intros H; injection H as <- <-; simpl; split; lia.
Qed.
Lemma pure_loop_grows a k : forall n h t p o, pure_loop a k n h t = (p, o) -> n <= pn p /\ (o = None -> 0 < k -> n < pn p).
Proof.
  induction k as [|k IH]; intros n h t p o; simpl; [intros H; injection H as <- <-; simpl; split; lia|].
  destruct (pure_turn_some a n h t) as [h' Hh]. destruct (pure_turn a n h t) as [p1 [e|]] eqn:E; apply pure_turn_grows in E as [E1 E2].
  - intros H; injection H as <- <-. split; [auto|discriminate].
  - simpl in Hh. rewrite Hh. intros H. apply IH in H as [H1 H2]. specialize (E2 eq_refl). split; [lia|]. intros; lia.
Qed.

(** n iterations then m are the same as n + m, unless the first ones stop. *)
Theorem pure_next_add a h0 k m p p1 : order a - 1 <= pn p -> (ph p = None -> pn p = order a - 1) ->
  pure_next a h0 k p = (p1, None) -> pure_next a h0 m p1 = pure_next a h0 (k + m) p.
Proof.
  intros Ho Hp. unfold pure_next. set (h := if pn p =? order a - 1 then h0 else _). rewrite pure_loop_add. intros E. rewrite E.
  destruct (pure_loop_some a k (pn p) h (pt p)) as [h' Hh]. rewrite E in Hh. simpl in Hh. rewrite Hh.
  destruct k as [|k].
  - simpl in E. injection E as <-. simpl in Hh. injection Hh as <-. simpl. unfold h. destruct (pn p =? order a - 1); auto.
  - apply pure_loop_grows in E as [_ E]. specialize (E eq_refl ltac:(lia)).
    replace (pn p1 =? order a - 1) with false by (symmetry; apply Nat.eqb_neq; lia). reflexivity.
Qed.


(** ** The same on the states of the algorithm *)
Lemma reachable_related a0 s : reachable a0 s -> exists h0 p, related (set_buffer_handling a0) h0 s p /\ wf (set_buffer_handling a0).
Proof.
  intros (h & t & ini & s0 & cs & G & GI & N & ->). assert (W : wf (set_buffer_handling a0)) by (apply wf_set; auto).
  pose proof (new_related _ h t ini s0 W GI N) as R. destruct (execs_related _ _ cs W s0 _ R) as [R' _]. eauto.
Qed.

Lemma related_obs a h0 s1 s2 p (o1 o2 : option exn) q : related a h0 s1 p -> related a h0 s2 p -> ph p = Some q -> o1 = o2 ->
  observed s1 = observed s2 /\ o1 = o2.
Proof.
  intros (_ & A1 & _ & A2) (_ & B1 & _ & B2) Hq ->. rewrite Hq in *. unfold observed. split; [|auto].
  destruct A2 as [-> _], B2 as [-> _]. congruence.
Qed.

Lemma pure_next_some a h0 k p : exists h, ph (fst (pure_next a h0 k p)) = Some h.
Proof. apply pure_loop_some. Qed.

Theorem next_add a0 k m s : let a := set_buffer_handling a0 in reachable a0 s -> snd (next a k s) = None ->
  observed (fst (next a m (fst (next a k s)))) = observed (fst (next a (k + m) s)) /\
  snd (next a m (fst (next a k s))) = snd (next a (k + m) s).
Proof.
  intros a Hr E. destruct (reachable_related a0 s Hr) as (h0 & p & R & W). fold a in R, W.
  destruct (next_related a h0 k s p W R) as [R1 E1].
  destruct (next_related a h0 m _ _ W R1) as [R2 E2]. destruct (next_related a h0 (k + m) s p W R) as [R3 E3].
  assert (A : pure_next a h0 m (fst (pure_next a h0 k p)) = pure_next a h0 (k + m) p).
  { apply pure_next_add with (p := p).
    - destruct R as (I & Hn & _). pose proof (i_niter _ _ _ I). lia.
    - destruct R as (I & Hn & _ & Hh). intros Hp; rewrite Hp in Hh. congruence.
    - rewrite E in E1. destruct (pure_next a h0 k p); simpl in *; subst; auto. }
  rewrite A in R2, E2. destruct (pure_next_some a h0 (k + m) p) as [h Hh].
  apply (related_obs a h0 _ _ _ _ _ h R2 R3 Hh). congruence.
Qed.

Lemma pure_turn_quiet a n h t p o : pure_turn a n h t = (p, o) ->
  pure_turn (quiet a) n h t = (p, match o with Some KeyboardInterrupt => None | o => o end) /\
  (o = Some KeyboardInterrupt -> n < pn p).
Proof.
  unfold pure_turn; simpl. destruct (normal_stop a n h); [intros H; injection H as <- <-; split; [auto|discriminate]|].
  destruct (abnormal_stop a n h); [intros H; injection H as <- <-; split; [auto|discriminate]|].
  destruct (iteration a (S n) h) as [vs []]; intros H; injection H as <- <-; simpl.
  - destruct (interrupt a t); split; auto; discriminate.
  - split; [auto|discriminate].
  - split; [auto|discriminate].
Qed.

Lemma pure_loop_interrupted a k : forall n h t p, pure_loop a k n h t = (p, Some KeyboardInterrupt) ->
  exists j, 0 < j <= k /\ pure_loop (quiet a) j n h t = (p, None).
Proof.
  induction k as [|k IH]; intros n h t p; simpl; [discriminate|].
  destruct (pure_turn_some a n h t) as [h' Hh]. destruct (pure_turn a n h t) as [p1 o] eqn:E. apply pure_turn_quiet in E as [E _].
  simpl in Hh. destruct o as [e|].
  - intros H; injection H as <- ->. exists 1. split; [lia|]. simpl. rewrite E, Hh. simpl. destruct p1; simpl in *; subst; auto.
  - rewrite Hh. intros H. apply IH in H as (j & Hj & H). exists (S j). split; [lia|]. simpl. rewrite E, Hh. auto.
Qed.
Lemma pure_loop_uninterrupted a k : forall n h t p o, pure_loop a k n h t = (p, o) -> o <> Some KeyboardInterrupt ->
  pure_loop (quiet a) k n h t = (p, o).
Proof.
  induction k as [|k IH]; intros n h t p o; simpl; [auto|].
  destruct (pure_turn_some a n h t) as [h' Hh]. destruct (pure_turn a n h t) as [p1 o1] eqn:E. apply pure_turn_quiet in E as [E _].
  simpl in Hh. rewrite E. destruct o1 as [e|].
  - intros H Ho; injection H as <- <-. destruct e; auto. congruence.
  - rewrite Hh. apply IH.
Qed.

Lemma related_quiet a h0 s p : related a h0 s p -> related (quiet a) h0 s p.
Proof. intros (I & H). split; [|exact H]. destruct I. constructor; auto. Qed.
Lemma wf_quiet a : wf a -> wf (quiet a).
Proof. intros (A & B & C & D). split; [|split; [|split]]; auto. Qed.

Theorem interrupted a0 n s : let a := set_buffer_handling a0 in reachable a0 s ->
  snd (next a n s) = Some KeyboardInterrupt ->
  exists k, 0 < k <= n /\
    snd (next (quiet a) k s) = None /\ observed (fst (next a n s)) = observed (fst (next (quiet a) k s)) /\
    forall m, observed (fst (next (quiet a) m (fst (next a n s)))) = observed (fst (next (quiet a) (k + m) s)) /\
              snd (next (quiet a) m (fst (next a n s))) = snd (next (quiet a) (k + m) s).
Proof.
  intros a Hr E. destruct (reachable_related a0 s Hr) as (h0 & p & R & W). fold a in R, W.
  pose proof (wf_quiet _ W) as Wq. pose proof (related_quiet _ _ _ _ R) as Rq.
  destruct (next_related a h0 n s p W R) as [R1 E1].
  assert (J : exists k, 0 < k <= n /\ pure_next (quiet a) h0 k p = (fst (pure_next a h0 n p), None)).
  { unfold pure_next in *.
    destruct (pure_loop a n (pn p) (if pn p =? order a - 1 then h0 else match ph p with Some h => h | None => h0 end) (pt p)) as [q o] eqn:L.
    simpl in E1. rewrite E in E1. subst o. apply pure_loop_interrupted in L as (j & Hj & L). exists j. split; [auto|exact L]. }
  destruct J as (k & Hk & J). exists k. split; auto.
  destruct (next_related (quiet a) h0 k s p Wq Rq) as [R2 E2]. rewrite J in R2, E2. simpl in R2, E2.
  split; auto. destruct (pure_next_some a h0 n p) as [h Hh].
  split. { apply (related_obs (quiet a) h0 _ _ _ None None h (related_quiet _ _ _ _ R1) R2 Hh eq_refl). }
  intros m. destruct (next_related (quiet a) h0 m _ _ Wq (related_quiet _ _ _ _ R1)) as [R3 E3].
  destruct (next_related (quiet a) h0 (k + m) s p Wq Rq) as [R4 E4].
  assert (A : pure_next (quiet a) h0 m (fst (pure_next a h0 n p)) = pure_next (quiet a) h0 (k + m) p).
  { apply pure_next_add with (p := p).
    - destruct R as (I & Hn & _). pose proof (i_niter _ _ _ I). change (order (quiet a)) with (order a). lia.
    - destruct R as (I & Hn & _ & Hh'). intros Hp; rewrite Hp in Hh'. change (order (quiet a)) with (order a). congruence.
    - exact J. }
  rewrite A in R3, E3. destruct (pure_next_some (quiet a) h0 (k + m) p) as [h' Hh'].
  apply (related_obs (quiet a) h0 _ _ _ _ _ h' R3 R4 Hh'). congruence.
Qed.

Theorem restart_fresh (a0 : algo V) (h : nat -> V) t ini s cs n : let a := set_buffer_handling a0 in
  good_algo a0 -> good_init a0 t ini -> new_algo a h t ini = Ok s -> reuse_initial_state a0 = false -> (forall k, interrupt a0 k = false) ->
  observed (fst (restart a n (fst (execs a cs s)))) = observed (fst (run a n s)) /\
  snd (restart a n (fst (execs a cs s))) = snd (run a n s).
Proof.
  intros a G GI N Hr Hi. assert (W : wf a) by (apply wf_set; auto).
  pose proof (new_related a h t ini s W GI N) as R. destruct (execs_related a _ cs W s (pure0 a) R) as [R1 _].
  destruct (exec_related a _ (Restart n) _ _ W R1) as [R2 E2]. destruct (exec_related a _ (Run n) _ _ W R) as [R3 E3].
  simpl exec in R2, E2, R3, E3. simpl pure_exec in R2, E2, R3, E3.
  assert (Hr' : (if inplace_recursion a0 then reuse_initial_state a0 else if allocate_new_state a0 then reuse_initial_state a0 else false) = false).
  { rewrite Hr. destruct (inplace_recursion a0), (allocate_new_state a0); auto. }
  rewrite Hr', andb_false_r in R2, E2.
  set (h0 := map (map h) ini) in *.
  assert (T : forall k n' hh t1 t2, let q1 := pure_loop a k n' hh t1 in let q2 := pure_loop a k n' hh t2 in
     pn (fst q1) = pn (fst q2) /\ ph (fst q1) = ph (fst q2) /\ snd q1 = snd q2).
  { induction k as [|k IH]; intros n' hh t1 t2; simpl; auto.
    assert (Ht : forall t, pure_turn a n' hh t = ({| pn := pn (fst (pure_turn a n' hh 0)); ph := ph (fst (pure_turn a n' hh 0)); pt := pt (fst (pure_turn a n' hh t)) |}, snd (pure_turn a n' hh 0))).
    { intros t0. unfold pure_turn. destruct (normal_stop a n' hh); auto. destruct (abnormal_stop a n' hh); auto.
      destruct (iteration a (S n') hh) as [vs []]; simpl; auto. rewrite !Hi. auto. }
    rewrite (Ht t1), (Ht t2). destruct (pure_turn_some a n' hh 0) as [h' Hh]. rewrite Hh.
    destruct (snd (pure_turn a n' hh 0)); simpl; auto. }
  unfold pure_run in *. simpl pn in *. rewrite Nat.ltb_irrefl in *.
  set (kk := match n with None | Some O => _ | _ => _ end) in *.
  unfold pure_next in *. cbn [pn ph pt pure0] in *. rewrite Nat.eqb_refl in *.
  specialize (T kk (order a0 - 1) h0 (pt (fst (pure_execs a h0 cs (pure0 a)))) 0). cbv zeta in T.
  destruct (pure_loop_some a kk (order a0 - 1) h0 (pt (fst (pure_execs a h0 cs (pure0 a))))) as [hh Hhh].
  change (order a) with (order a0) in *.
  destruct (pure_loop a kk (order a0 - 1) h0 (pt (fst (pure_execs a h0 cs (pure0 a))))) as [q1 o1].
  destruct (pure_loop a kk (order a0 - 1) h0 0) as [q2 o2]. simpl in T, Hhh. destruct T as (T1 & T2 & <-).
  assert (Q : fst (pure_swallow (q1, o1)) = q1 /\ fst (pure_swallow (q2, o1)) = q2 /\ snd (pure_swallow (q1, o1)) = snd (pure_swallow (q2, o1))).
  { simpl. destruct o1 as [[]|]; auto. }
  destruct Q as (Q1 & Q2 & Q3). rewrite Q1 in R2. rewrite Q2 in R3. split; [|congruence].
  destruct R2 as (_ & A1 & _ & A2), R3 as (_ & B1 & _ & B2). rewrite Hhh in A2. rewrite <- T2, Hhh in B2.
  unfold observed. destruct A2 as [-> _], B2 as [-> _]. congruence.
Qed.

End IterProofs.

(** The Fibonacci recursion, of order two, with preallocated buffers. *)
Definition fibonacci (max : nat) (intr : nat -> bool) : algo nat :=
  {| iteration := fun _ h => (map (fun v => nth 0 v 0 + nth 1 v 0) h, Fine);
     normal_stop := fun n _ => n =? 9; abnormal_stop := fun _ _ => false; order := 2;
     inplace_recursion := false; allocate_new_state := true; reuse_initial_state := false; int_max := max; interrupt := intr |}.

Lemma fibonacci_good max intr : good_algo (fibonacci max intr).
Proof. split; simpl; auto. intros n h. apply map_length. Qed.

Theorem run_zero_refuted : exists (a : algo nat) s, reachable a s /\ niter s = order a - 1 /\
  niter (fst (run (set_buffer_handling a) (Some 0) s)) <> niter s.
Proof.
  exists (fibonacci 20 (fun _ => false)). eexists. split.
  - exists (fun i => i), 2, [[1; 0]]. eexists. exists []. split; [apply fibonacci_good|]. split.
    + split; simpl; [intros v [<-|[]]; auto|intros x [<-|[<-|[]]]; lia].
    + split; reflexivity.
  - split; [reflexivity|]. vm_compute. discriminate.
Qed.

Theorem cont_not_started_refuted : exists (a : algo nat) s, reachable a s /\ niter s = order a - 1 /\ hists s = [[]] /\
  snd (cont (set_buffer_handling a) s) <> Some RuntimeError.
Proof.
  exists (fibonacci 20 (fun _ => false)). eexists. split.
  - exists (fun i => i), 2, [[1; 0]]. eexists. exists []. split; [apply fibonacci_good|]. split.
    + split; simpl; [intros v [<-|[]]; auto|intros x [<-|[<-|[]]]; lia].
    + split; reflexivity.
  - split; [reflexivity|]. split; [reflexivity|]. vm_compute. discriminate.
Qed.
