(** Proofs for C45. *)
From Verif Require Import Base Algebra Ofield CgModel SplitModel SpmdModel SpmdSpec.
Local Open Scope nat_scope.

Section Lists.
Lemma all_some_map {A B} (f : A -> option B) (g : A -> B) l : (forall a, In a l -> f a = Some (g a)) -> all_some (map f l) = Some (map g l).
Proof. induction l as [|a l IH]; intros H; cbn; [reflexivity|]. rewrite (H a) by (left; reflexivity). rewrite IH by (intros; apply H; right; assumption). reflexivity. Qed.
Lemma all_some_in {A B} (f : A -> option B) l r : all_some (map f l) = Some r -> forall a, In a l -> exists b, f a = Some b.
Proof.
  revert r. induction l as [|a l IH]; intros r H b Hb; cbn in *; [destruct Hb|]. destruct (f a) eqn:E; [|discriminate]. destruct (all_some (map f l)) eqn:E'; [|discriminate]. destruct Hb as [<-|Hb]; [eauto|]. eapply IH; eauto.
Qed.
Lemma all_some_ext {A B} (f g : A -> option B) l : (forall a, In a l -> f a = g a) -> all_some (map f l) = all_some (map g l).
Proof. intros H. f_equal. apply map_ext_in, H. Qed.
Lemma all_some_length {A} (l : list (option A)) : forall r, all_some l = Some r -> length r = length l.
Proof. induction l as [|[a|] l IH]; intros r H; cbn in *; try discriminate; [injection H as <-; reflexivity|]. destruct (all_some l) as [r'|]; [|discriminate]. injection H as <-. cbn. f_equal. apply IH. reflexivity. Qed.
Lemma combine_map {A B C} (f : A -> B) (g : A -> C) l : combine (map f l) (map g l) = map (fun a => (f a, g a)) l.
Proof. induction l as [|a l IH]; cbn; [reflexivity|]. f_equal. exact IH. Qed.
Lemma zip_map {A B C D} (h : B -> C -> D) (f : A -> B) (g : A -> C) l : zip h (map f l) (map g l) = map (fun a => h (f a) (g a)) l.
Proof. unfold zip. rewrite combine_map, map_map. reflexivity. Qed.
End Lists.

Section Run.
Context {K : cring} {R : Type}.
Implicit Types (cfg : list (prog K R)) (p : prog K R) (c : comm).
Lemma comm_eqb_iff c c' : comm_eqb c c' = true <-> c = c'.
Proof. unfold comm_eqb. destruct c as [i m], c' as [i' m']. cbn [c_id c_members]. destruct (list_eq_dec Nat.eq_dec i i') as [->|N], (list_eq_dec Nat.eq_dec m m') as [->|N']; cbn [andb]; split; intros H; try reflexivity; try discriminate; exfalso; injection H; intros; auto. Qed.
Lemma put_length cfg : forall m p, length (put cfg m p) = length cfg.
Proof. induction cfg as [|x cfg IH]; intros [|m] p; cbn; auto. Qed.
Lemma put_same cfg : forall m p, m < length cfg -> nth_error (put cfg m p) m = Some p.
Proof. induction cfg as [|x cfg IH]; intros [|m] p H; cbn in *; try lia; [reflexivity|]. apply IH. lia. Qed.
Lemma put_other cfg : forall m m' p, m <> m' -> nth_error (put cfg m p) m' = nth_error cfg m'.
Proof. induction cfg as [|x cfg IH]; intros [|m] [|m'] p H; cbn in *; try reflexivity; [lia|]. apply IH. lia. Qed.
Lemma put_comm cfg : forall m m' p p', m <> m' -> put (put cfg m p) m' p' = put (put cfg m' p') m p.
Proof. induction cfg as [|x cfg IH]; intros [|m] [|m'] p p' H; cbn; try reflexivity; [lia|]. f_equal. apply IH. lia. Qed.
Lemma deliver_length l : forall cfg, length (deliver cfg l) = length cfg.
Proof. induction l as [|[m p] l IH]; intros cfg; cbn; [reflexivity|]. change (length (deliver (put cfg m p) l) = length cfg). rewrite IH. apply put_length. Qed.
Lemma deliver_other l : forall cfg m, ~ In m (map fst l) -> nth_error (deliver cfg l) m = nth_error cfg m.
Proof. induction l as [|[m' p] l IH]; intros cfg m H; cbn in *; [reflexivity|]. change (nth_error (deliver (put cfg m' p) l) m = nth_error cfg m). rewrite IH by tauto. apply put_other. tauto. Qed.
Lemma deliver_in l : forall cfg m p, NoDup (map fst l) -> In (m, p) l -> m < length cfg -> nth_error (deliver cfg l) m = Some p.
Proof.
  induction l as [|[m' p'] l IH]; intros cfg m p N H L; cbn in *; [destruct H|]. apply NoDup_cons_iff in N. destruct N as [N N']. change (nth_error (deliver (put cfg m' p') l) m = Some p). destruct H as [H|H].
  - injection H as -> ->. rewrite deliver_other by exact N. apply put_same, L.
  - apply IH; [exact N'|exact H|rewrite put_length; exact L].
Qed.
Lemma deliver_put l : forall cfg m p, ~ In m (map fst l) -> deliver (put cfg m p) l = put (deliver cfg l) m p.
Proof. induction l as [|[m' p'] l IH]; intros cfg m p H; cbn in *; [reflexivity|]. change (deliver (put (put cfg m p) m' p') l = put (deliver (put cfg m' p') l) m p). rewrite put_comm by (intros E; apply H; left; congruence). apply IH. tauto. Qed.
Lemma deliver_comm l l' : (forall m, In m (map fst l) -> ~ In m (map fst l')) -> forall cfg, deliver (deliver cfg l) l' = deliver (deliver cfg l') l.
Proof.
  induction l as [|[m p] l IH]; intros D cfg; [reflexivity|]. change (deliver (deliver (put cfg m p) l) l' = deliver (put (deliver cfg l') m p) l). rewrite IH by (intros; apply D; right; assumption). f_equal. apply deliver_put, D. left. reflexivity.
Qed.
Lemma calling_some c (p : option (prog K R)) q k : calling c p = Some (q, k) -> p = Some (Call c q k).
Proof. unfold calling. destruct p as [[r|c' q' k'|]|]; try discriminate. destruct (comm_eqb c c') eqn:E; [|discriminate]. intros H. injection H as <- <-. apply comm_eqb_iff in E. rewrite E. reflexivity. Qed.
Lemma in_combine_fst {A B} (l : list A) (l' : list B) a : In a (map fst (combine l l')) -> In a l.
Proof. intros H. apply in_map_iff in H. destruct H as ([a' b] & <- & H). apply in_combine_l in H. exact H. Qed.

(** Two operations that can take place are independent. *)
Lemma fire_diamond c c' cfg a b : fire c cfg = Some a -> fire c' cfg = Some b -> c = c' \/ exists d, fire c' a = Some d /\ fire c b = Some d.
Proof.
  intros Ha Hb. unfold fire in Ha, Hb. destruct (all_some (map (fun m => calling c (nth_error cfg m)) (c_members c))) as [l|] eqn:E; [|discriminate]. destruct (serve c (map fst l)) as [vs|] eqn:V; [|discriminate]. injection Ha as <-.
  destruct (all_some (map (fun m => calling c' (nth_error cfg m)) (c_members c'))) as [l'|] eqn:E'; [|discriminate]. destruct (serve c' (map fst l')) as [vs'|] eqn:V'; [|discriminate]. injection Hb as <-.
  destruct (comm_eqb c c') eqn:Q; [left; apply comm_eqb_iff, Q|right].
  assert (D : forall m, In m (c_members c) -> ~ In m (c_members c')).
  { intros m Hm Hm'. destruct (all_some_in _ _ _ E m Hm) as ([q k] & H). destruct (all_some_in _ _ _ E' m Hm') as ([q' k'] & H'). apply calling_some in H, H'. rewrite H in H'. injection H' as <- _ _. rewrite (proj2 (comm_eqb_iff c c)) in Q by reflexivity. discriminate. }
  eexists. unfold fire. split.
  - rewrite (all_some_ext _ (fun m => calling c' (nth_error cfg m))), E', V'; [reflexivity|]. intros m Hm. rewrite deliver_other; [reflexivity|]. intros I. apply in_combine_fst in I. exact (D m I Hm).
  - rewrite (all_some_ext _ (fun m => calling c (nth_error cfg m))), E, V; [|intros m Hm; rewrite deliver_other; [reflexivity|]; intros I; apply in_combine_fst in I; exact (D m Hm I)].
    f_equal. apply deliver_comm. intros m I I'. apply in_combine_fst in I. apply in_combine_fst in I'. exact (D m I' I).
Qed.
Lemma run_app s1 s2 : forall cfg, run cfg (s1 ++ s2) = match run cfg s1 with Some cfg' => run cfg' s2 | None => None end.
Proof. induction s1 as [|c s1 IH]; intros cfg; cbn; [reflexivity|]. destruct (fire c cfg); [apply IH|reflexivity]. Qed.
(** one step joins a schedule *)
Lemma strip s : forall cfg a c b, run cfg s = Some a -> fire c cfg = Some b -> (exists s', run b s' = Some a /\ length s = S (length s')) \/ exists d, fire c a = Some d /\ run b s = Some d.
Proof.
  induction s as [|c' s IH]; intros cfg a c b Ha Hb; cbn in Ha.
  - injection Ha as <-. right. exists b. split; [exact Hb|reflexivity].
  - destruct (fire c' cfg) as [e|] eqn:E; [|discriminate]. destruct (fire_diamond c c' cfg b e Hb E) as [<-|(d & D1 & D2)].
    + left. exists s. rewrite Hb in E. injection E as ->. split; [exact Ha|reflexivity].
    + destruct (IH e a c d Ha D2) as [(s' & H1 & H2)|(f & H1 & H2)].
      * left. exists (c' :: s'). cbn. rewrite D1. split; [exact H1|]. lia.
      * right. exists f. split; [exact H1|]. cbn. rewrite D1. exact H2.
Qed.
Definition final cfg : Prop := forall c, fire c cfg = None.
Lemma confluence s : forall cfg fin, run cfg s = Some fin -> final fin -> forall s2 a, run cfg s2 = Some a -> exists s', run a s' = Some fin /\ length s2 + length s' = length s.
Proof.
  intros cfg fin H F s2. revert cfg s H. induction s2 as [|c s2 IH]; intros cfg s H a Ha; cbn in Ha.
  - injection Ha as <-. exists s. split; [exact H|reflexivity].
  - destruct (fire c cfg) as [b|] eqn:E; [|discriminate]. destruct (strip s cfg fin c b H E) as [(s' & H1 & H2)|(d & H1 & _)]; [|rewrite F in H1; discriminate].
    destruct (IH b s' H1 a Ha) as (s'' & G1 & G2). exists s''. split; [exact G1|]. cbn. lia.
Qed.
Lemma serve_nil c : serve (K := K) c [] = None. Proof. reflexivity. Qed.
Lemma ret_final rs : final (map Ret rs).
Proof.
  intros c. unfold fire. destruct (c_members c) as [|m ms]; [reflexivity|]. cbn [map all_some]. rewrite nth_error_map. destruct (nth_error rs m); reflexivity.
Qed.
Lemma completes_of_run (ps : list (prog K R)) rs s : run ps s = Some (map Ret rs) -> completes ps rs.
Proof. intros H. exists (length s). intros s2 a Ha. exact (confluence s ps _ H (ret_final rs) s2 a Ha). Qed.

(** * Programs with a continuation *)
Lemma yields_ret {A} ms (r : nat -> A) : yields (K := K) (R := R) ms (fun m k => k (r m)) r.
Proof. intros k cfg H. exists [], cfg. split; [reflexivity|]. split; [exact H|]. split; reflexivity. Qed.
Lemma yields_bind {A B} ms (p : nat -> (A -> prog K R) -> prog K R) r (f : nat -> A -> (B -> prog K R) -> prog K R) r' : yields ms p r -> yields ms (fun m => f m (r m)) r' -> yields ms (fun m k => p m (fun a => f m a k)) r'.
Proof.
  intros Hp Hf k cfg H. destruct (Hp (fun m a => f m a (k m)) cfg H) as (s & cfg' & E & H1 & H2 & L). destruct (Hf k cfg' H1) as (s' & cfg'' & E' & H1' & H2' & L').
  exists (s ++ s'), cfg''. rewrite run_app, E. split; [exact E'|]. split; [exact H1'|]. split; [|congruence]. intros m Hm. rewrite H2', H2 by exact Hm. reflexivity.
Qed.
Lemma yields_ext {A} ms (p p' : nat -> (A -> prog K R) -> prog K R) r r' : (forall m k, In m ms -> p m k = p' m k) -> (forall m, In m ms -> r m = r' m) -> yields ms p r -> yields ms p' r'.
Proof.
  intros Ep Er H k cfg Hk. destruct (H k cfg) as (s & cfg' & E & H1 & H2 & L). { intros m Hm. rewrite Ep by exact Hm. apply Hk, Hm. }
  exists s, cfg'. split; [exact E|]. split; [|split; assumption]. intros m Hm. rewrite <- Er by exact Hm. apply H1, Hm.
Qed.
(** One collective operation *)
Lemma yields_call {A} c (q : nat -> request) (w : nat -> value) (f : nat -> value -> (A -> prog K R) -> prog K R) r : NoDup (c_members c) -> serve c (map q (c_members c)) = Some (map w (c_members c)) ->
  yields (c_members c) (fun m => f m (w m)) r -> yields (c_members c) (fun m k => Call c (q m) (fun v => f m v k)) r.
Proof.
  intros N V Hf k cfg H. assert (E : all_some (map (fun m => calling c (nth_error cfg m)) (c_members c)) = Some (map (fun m => (q m, fun v => f m v (k m))) (c_members c))).
  { apply all_some_map. intros m Hm. rewrite (H m Hm). unfold calling. rewrite (proj2 (comm_eqb_iff c c)) by reflexivity. reflexivity. }
  set (l := combine (c_members c) (map (fun m => f m (w m) (k m)) (c_members c))).
  assert (Ef : fire c cfg = Some (deliver cfg l)). { unfold fire. rewrite E, map_map. cbn [fst]. rewrite (V : serve c (map (fun m => q m) (c_members c)) = _), zip_map. reflexivity. }
  assert (Fl : map fst l = c_members c). { unfold l. rewrite <- (map_id (c_members c)) at 1. rewrite combine_map, map_map. cbn [fst]. apply map_id. }
  destruct (Hf k (deliver cfg l)) as (s & cfg' & E' & H1 & H2 & L).
  { intros m Hm. apply deliver_in; [rewrite Fl; exact N| |apply nth_error_Some; rewrite (H m Hm); discriminate]. unfold l. rewrite <- (map_id (c_members c)) at 1. rewrite combine_map. apply in_map_iff. exists m. split; [reflexivity|exact Hm]. }
  exists (c :: s), cfg'. cbn. rewrite Ef. split; [exact E'|]. split; [exact H1|]. split; [|rewrite L; apply deliver_length]. intros m Hm. rewrite H2 by exact Hm. apply deliver_other. rewrite Fl. exact Hm.
Qed.
(** Disjoint groups of processes *)
Lemma yields_app {A} ms ms' (p : nat -> (A -> prog K R) -> prog K R) r : (forall m, In m ms -> ~ In m ms') -> yields ms p r -> yields ms' p r -> yields (ms ++ ms') p r.
Proof.
  intros D H H' k cfg Hk. destruct (H k cfg) as (s & cfg1 & E & H1 & H2 & L). { intros m Hm. apply Hk, in_or_app. left. exact Hm. }
  destruct (H' k cfg1) as (s' & cfg2 & E' & H1' & H2' & L'). { intros m Hm. rewrite H2; [apply Hk, in_or_app; right; exact Hm|]. intros Hm'. exact (D m Hm' Hm). }
  exists (s ++ s'), cfg2. rewrite run_app, E. split; [exact E'|]. split; [|split; [|congruence]].
  - intros m Hm. apply in_app_or in Hm. destruct Hm as [Hm|Hm]; [|apply H1', Hm]. rewrite H2' by (apply D, Hm). apply H1, Hm.
  - intros m Hm. rewrite H2', H2; [reflexivity| |]; intros Hm'; apply Hm, in_or_app; auto.
Qed.
Lemma yields_nil {A} (p : nat -> (A -> prog K R) -> prog K R) r : yields [] p r.
Proof. intros k cfg _. exists [], cfg. split; [reflexivity|]. split; [intros m []|]. split; reflexivity. Qed.
Lemma yields_each {A} ms (p : nat -> (A -> prog K R) -> prog K R) r : NoDup ms -> (forall m, In m ms -> yields [m] p r) -> yields ms p r.
Proof.
  induction ms as [|m ms IH]; intros N H; [apply yields_nil|]. apply NoDup_cons_iff in N. destruct N as [N N']. apply (yields_app [m] ms).
  - intros m' [<-|[]]. exact N.
  - apply H. left. reflexivity.
  - apply IH; [exact N'|]. intros m' Hm. apply H. right. exact Hm.
Qed.
Lemma yields_in {A} ms ms' (p : nat -> (A -> prog K R) -> prog K R) r : (forall m, In m ms <-> In m ms') -> yields ms p r -> yields ms' p r.
Proof.
  intros I H k cfg Hk. destruct (H k cfg) as (s & cfg' & E & H1 & H2 & L). { intros m Hm. apply Hk, I, Hm. }
  exists s, cfg'. split; [exact E|]. split; [intros m Hm; apply H1, I, Hm|]. split; [|exact L]. intros m Hm. apply H2. intros Hm'. apply Hm, I, Hm'.
Qed.
End Run.
Lemma nth_error_seq n : forall a m, m < n -> nth_error (seq a n) m = Some (a + m).
Proof. induction n as [|n IH]; intros a [|m] H; cbn; try lia; [f_equal; lia|]. rewrite IH by lia. f_equal. lia. Qed.
Lemma yields_completes {K : cring} {R} P (p : nat -> (R -> prog K R) -> prog K R) (r : nat -> R) : yields (seq 0 P) p r -> completes (map (fun i => p i Ret) (seq 0 P)) (map r (seq 0 P)).
Proof.
  intros H. destruct (H (fun _ => Ret) (map (fun i => p i Ret) (seq 0 P))) as (s & cfg & E & H1 & H2 & L).
  { intros m Hm. apply in_seq in Hm. rewrite nth_error_map, nth_error_seq by lia. reflexivity. }
  apply (completes_of_run _ _ s). rewrite E. f_equal. apply nth_ext with (d := Stuck) (d' := Stuck); [rewrite L, !map_length; reflexivity|]. intros m Hm. rewrite L, map_length, seq_length in Hm.
  apply nth_error_nth. rewrite H1 by (apply in_seq; lia). f_equal. symmetry.
  apply nth_error_nth. rewrite map_map, nth_error_map, nth_error_seq by lia. reflexivity.
Qed.
(** A process waits for one that has ended. *)
Lemma deadlock_pair {K : cring} {R} (r : R) c q (k : value -> prog K R) : In 0 (c_members c) -> deadlock [Ret r; Call c q k].
Proof.
  intros H. split; [exists (Call c q k); split; [right; left; reflexivity|discriminate]|]. intros c'. unfold fire. destruct (all_some _) as [l|] eqn:E; [|reflexivity].
  pose proof (all_some_in _ _ _ E) as F. assert (X : forall m, In m (c_members c') -> m = 1 /\ c' = c).
  { intros m Hm. destruct (F m Hm) as ([q' k'] & Eq). apply calling_some in Eq. destruct m as [|[|m]]; cbn in Eq; [discriminate|injection Eq as <- _ _; split; reflexivity|destruct m; discriminate]. }
  destruct (c_members c') as [|m ms] eqn:M; [injection E as <-; reflexivity|]. destruct (X m (or_introl eq_refl)) as [_ ->]. rewrite M in H. destruct (X 0 H) as [H0 _]. discriminate H0.
Qed.
