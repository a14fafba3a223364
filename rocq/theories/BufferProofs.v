(** Proofs for C13 and C14. *)
From Verif Require Import Base MemoryModel MemorySpec MemoryProofs BufferModel BufferSpec.
Open Scope Z_scope.

Lemma NoDup_app_iff {A} (l1 l2 : list A) :
  NoDup (l1 ++ l2) <-> NoDup l1 /\ NoDup l2 /\ (forall x, In x l1 -> ~ In x l2).
Proof.
  induction l1 as [|a l1 IH]; cbn.
  - split; [intros; repeat split; auto; constructor|tauto].
  - split.
    + intros H. inversion H as [|? ? Hn Hd]; subst. apply IH in Hd as (H1 & H2 & H3). rewrite in_app_iff in Hn.
      repeat split; [constructor; tauto|auto|]. intros x [<-|Hx]; [tauto|auto].
    + intros (H1 & H2 & H3). inversion H1 as [|? ? Hn Hd]; subst. constructor.
      * rewrite in_app_iff. intros [H|H]; [tauto|]. apply (H3 a); auto.
      * apply IH. repeat split; auto.
Qed.

Section Buffers.
Context {V : Type}.
Variables (c : config) (malloc : nat -> Z).
Hypothesis Halloc : alloc_ok c malloc.

Notation old := (@old V c malloc).
Notation world_ok := (@world_ok V c malloc).

Lemma old_mono (w w' : world V) a : (bn w <= bn w')%nat -> old w a -> old w' a.
Proof. intros H Ho n Hn. apply Ho. lia. Qed.

Lemma flat_addrs b l : addrs (flat b :: l) = a_addr b :: addrs l.
Proof. cbn. rewrite flat_addr. reflexivity. Qed.

(** [w] was reached from [w0], with the arrays [lent] put in the pool and the arrays [held] taken out of it. *)
Record ext (w0 : world V) (lent : list arr) (w : world V) (held : list arr) : Prop := {
  x_n : (bn w0 <= bn w)%nat;
  x_inv : pool_inv (bpool w);
  x_perm : exists news, Permutation (held ++ bpool w) (bpool w0 ++ lent ++ news)
    /\ Forall (fun b => exists n, (bn w0 <= n < bn w)%nat /\ fresh_addr c malloc n (a_addr b)) news;
  x_nodup : NoDup (addrs (held ++ bpool w));
  x_old : Forall (old w) (addrs (held ++ bpool w)) }.

Lemma ext_refl w : world_ok w -> ext w [] w [].
Proof.
  intros [Hi Ho]. constructor; cbn; auto.
  - exists []. rewrite app_nil_r. auto.
  - apply Hi.
Qed.

Lemma ext_world_ok w0 lent w held : ext w0 lent w held -> world_ok w.
Proof.
  intros X. split; [apply X|]. pose proof (x_old _ _ _ _ X) as H. unfold addrs in H. rewrite map_app in H.
  apply Forall_app in H. apply H.
Qed.

Lemma ext_in w0 lent w held a : ext w0 lent w held -> In a (addrs (held ++ bpool w)) ->
  in_pool w0 a \/ In a (addrs lent) \/ ~ old w0 a.
Proof.
  intros X Hin. destruct (x_perm _ _ _ _ X) as (news & Hp & Hf).
  apply (Permutation_in _ (Permutation_map a_addr Hp)) in Hin. rewrite !map_app in Hin.
  rewrite !in_app_iff in Hin. destruct Hin as [H|[H|H]]; [left; exact H|right; left; exact H|].
  right; right. apply in_map_iff in H as (b & <- & Hb).
  rewrite Forall_forall in Hf. destruct (Hf b Hb) as (n & Hn & Hfr).
  intros Ho. apply (Ho n); [lia|exact Hfr].
Qed.

Lemma ext_notin w0 w held a : ext w0 [] w held -> old w0 a -> ~ in_pool w0 a -> ~ In a (addrs (held ++ bpool w)).
Proof. intros X Ho Hn Hin. destruct (ext_in _ _ _ _ _ X Hin) as [H|[H|H]]; auto. Qed.

Lemma notin_app a (l1 l2 : list arr) : ~ In a (addrs (l1 ++ l2)) <-> ~ In a (addrs l1) /\ ~ In a (addrs l2).
Proof. unfold addrs. rewrite map_app, in_app_iff. tauto. Qed.

(** A step that keeps the pool. *)
Lemma ext_op w0 lent w held w1 : ext w0 lent w held -> world_ok w1 -> pool_kept c malloc w w1 -> ext w0 lent w1 held.
Proof.
  intros X [Hi Ho] [Hn (news & Hp & Hf)]. destruct (x_perm _ _ _ _ X) as (news0 & Hp0 & Hf0).
  pose proof (x_n _ _ _ _ X) as Hn0.
  assert (Hold : Forall (old w1) (addrs held)).
  { pose proof (x_old _ _ _ _ X) as H. unfold addrs in H. rewrite map_app in H. apply Forall_app in H as [H _].
    eapply Forall_impl; [|exact H]. intros a. apply old_mono; exact Hn. }
  constructor; auto; [lia| | |].
  - exists (news0 ++ news). split.
    + rewrite Hp. rewrite app_assoc, Hp0. rewrite <- !app_assoc. reflexivity.
    + apply Forall_app. split.
      * eapply Forall_impl; [|exact Hf0]. intros b (n & ? & ?). exists n. split; [lia|auto].
      * eapply Forall_impl; [|exact Hf]. intros b (n & ? & ?). exists n. split; [lia|auto].
  - assert (H : NoDup (addrs (held ++ bpool w))) by apply X.
    pose proof (x_old _ _ _ _ X) as Hx. unfold addrs in *. rewrite map_app in *.
    apply NoDup_app_iff in H as (H1 & H2 & H3). apply Forall_app in Hx as [Hx _].
    apply NoDup_app_iff. repeat split; auto; [apply Hi|].
    intros a Ha Hb. apply (Permutation_in _ (Permutation_map a_addr Hp)) in Hb. rewrite map_app in Hb.
    apply in_app_iff in Hb as [Hb|Hb]; [exact (H3 a Ha Hb)|].
    apply in_map_iff in Hb as (b & <- & Hb). rewrite Forall_forall in Hf, Hx. destruct (Hf b Hb) as (n & Hl & Hfr).
    apply (Hx _ Ha n); [lia|exact Hfr].
  - unfold addrs. rewrite map_app. apply Forall_app. split; auto.
Qed.

Lemma fresh_self n shape item : fresh_addr c malloc n (a_addr (empty c shape item (malloc n))).
Proof. exists shape, item. reflexivity. Qed.

Lemma ext_extract w0 lent w held r b w1 : ext w0 lent w held -> w_extract c malloc r w = (b, w1) ->
  ext w0 lent w1 (flat b :: held) /\ bheap w1 = bheap w /\ (bn w <= bn w1)%nat.
Proof.
  intros X E. unfold w_extract in E. destruct (x_perm _ _ _ _ X) as (news & Hp & Hf).
  pose proof (x_n _ _ _ _ X) as Hn. pose proof (x_inv _ _ _ _ X) as Hi. pose proof (x_old _ _ _ _ X) as Ho.
  pose proof (x_nodup _ _ _ _ X) as Hd.
  destruct (extract_cases c r (malloc (bn w)) (bpool w)) as [(k & v & _ & Hk & _ & Ee)|[_ Ee]]; rewrite Ee in E;
    injection E as <- <-; cbn; split; auto.
  - pose proof (nth_pop_perm _ _ _ Hk) as Hpp.
    assert (Hfl : flat v = v).
    { destruct Hi as (_ & _ & Hfl). rewrite Forall_forall in Hfl. apply Hfl. eapply nth_error_In; eauto. }
    rewrite Hfl.
    assert (HP : Permutation ((v :: held) ++ pop k (bpool w)) (held ++ bpool w)).
    { etransitivity; [apply Permutation_middle|]. apply Permutation_app_head. symmetry. exact Hpp. }
    constructor; cbn [bn bpool]; auto.
    + eapply pop_inv; eauto.
    + exists news. split; [rewrite HP; exact Hp|exact Hf].
    + eapply Permutation_NoDup; [symmetry; apply (Permutation_map a_addr HP)|exact Hd].
    + eapply Permutation_Forall; [symmetry; apply (Permutation_map a_addr HP)|exact Ho].
  - set (b := empty c (r_shape r) (r_item r) (malloc (bn w))) in *.
    assert (Hfb : fresh_addr c malloc (bn w) (a_addr b)) by apply fresh_self.
    constructor; cbn [bn bpool]; auto.
    + exists (flat b :: news). split.
      * cbn. rewrite Hp. rewrite !app_assoc. apply Permutation_middle.
      * constructor; [exists (bn w); split; [lia|rewrite flat_addr; exact Hfb]|].
        eapply Forall_impl; [|exact Hf]. intros b' (n & ? & ?). exists n. split; [lia|auto].
    + cbn [app]. rewrite flat_addrs. constructor; [|exact Hd]. intros Hin. rewrite Forall_forall in Ho.
      apply (Ho _ Hin (bn w)); [lia|exact Hfb].
    + cbn [app]. rewrite flat_addrs. constructor.
      * intros m Hm Hfm. cbn in Hm. pose proof (Halloc _ _ _ Hfb Hfm). lia.
      * eapply Forall_impl; [|exact Ho]. intros a. apply old_mono. cbn. lia.
Qed.

Lemma w_add_ok a (w w1 : world V) : w_add a w = Ok w1 ->
  exists p, add a (bpool w) = Ok p /\ w1 = with_pool w p.
Proof. unfold w_add. destruct (add a (bpool w)); cbn; [|discriminate]. intros H; injection H as <-. eauto. Qed.

Lemma w_remove_ok a (w w1 : world V) : w_remove a w = Ok w1 ->
  exists p, remove a (bpool w) = Ok p /\ w1 = with_pool w p.
Proof. unfold w_remove. destruct (remove a (bpool w)); cbn; [|discriminate]. intros H; injection H as <-. eauto. Qed.

(** Giving a held array back. *)
Lemma ext_give w0 lent w b held w1 : ext w0 lent w (flat b :: held) -> w_add b w = Ok w1 ->
  ext w0 lent w1 held /\ bheap w1 = bheap w /\ bn w1 = bn w.
Proof.
  intros X E. apply w_add_ok in E as (p & Ep & ->). pose proof (add_ok _ _ _ Ep) as (Hp & _ & _).
  assert (HP : Permutation (held ++ p) ((flat b :: held) ++ bpool w)).
  { rewrite Hp. cbn. symmetry. apply Permutation_middle. }
  split; [|split; reflexivity].
  constructor; cbn [bn bpool with_pool].
  - apply X.
  - eapply add_inv; [apply X|exact Ep].
  - destruct (x_perm _ _ _ _ X) as (news & Hq & Hf). exists news. split; [rewrite HP; exact Hq|exact Hf].
  - eapply Permutation_NoDup; [symmetry; apply (Permutation_map a_addr HP)|apply X].
  - eapply Permutation_Forall; [symmetry; apply (Permutation_map a_addr HP)|apply X].
Qed.

(** Lending an array to the pool and taking it back. *)
Lemma ext_lend w0 w held o w1 : ext w0 [] w held -> old w (a_addr o) -> ~ In (a_addr o) (addrs (held ++ bpool w)) ->
  w_add o w = Ok w1 -> ext w0 [flat o] w1 held /\ bheap w1 = bheap w /\ bn w1 = bn w.
Proof.
  intros X Ho Hni E. apply w_add_ok in E as (p & Ep & ->). pose proof (add_ok _ _ _ Ep) as (Hp & _ & _).
  assert (HP : Permutation (held ++ p) (flat o :: held ++ bpool w)).
  { rewrite Hp. symmetry. apply Permutation_middle. }
  split; [|split; reflexivity].
  constructor; cbn [bn bpool with_pool].
  - apply X.
  - eapply add_inv; [apply X|exact Ep].
  - destruct (x_perm _ _ _ _ X) as (news & Hq & Hf). exists news. split; [|exact Hf].
    rewrite HP, Hq. cbn. apply Permutation_middle.
  - eapply Permutation_NoDup; [symmetry; apply (Permutation_map a_addr HP)|]. fold (addrs (flat o :: held ++ bpool w)).
    rewrite flat_addrs. constructor; [exact Hni|apply X].
  - eapply Permutation_Forall; [symmetry; apply (Permutation_map a_addr HP)|]. fold (addrs (flat o :: held ++ bpool w)).
    rewrite flat_addrs. constructor; [exact Ho|apply X].
Qed.

Lemma ext_unlend w0 w held o w1 : world_ok w0 -> old w0 (a_addr o) -> ~ in_pool w0 (a_addr o) ->
  ext w0 [flat o] w held -> w_remove o w = Ok w1 ->
  ext w0 [] w1 held /\ bheap w1 = bheap w /\ bn w1 = bn w.
Proof.
  intros Hw Ho Hni X E. apply w_remove_ok in E as (p & Ep & ->). pose proof (remove_ok _ _ _ Ep) as (b & Hb & Ha & Hp & _).
  split; [|split; reflexivity].
  assert (HP : Permutation (held ++ bpool w) (b :: held ++ p)).
  { rewrite Hp. symmetry. apply Permutation_middle. }
  pose proof (x_nodup _ _ _ _ X) as Hd. pose proof (x_old _ _ _ _ X) as Hx.
  apply (Permutation_NoDup (Permutation_map a_addr HP)) in Hd. cbn in Hd.
  apply (Permutation_Forall (Permutation_map a_addr HP)) in Hx. cbn in Hx.
  constructor; cbn [bn bpool with_pool].
  - apply X.
  - eapply remove_inv; [apply X|exact Ep].
  - destruct (x_perm _ _ _ _ X) as (news & Hq & Hf). exists news. split; [|exact Hf]. cbn [app].
    assert (Hq' : Permutation (b :: held ++ p) (flat o :: bpool w0 ++ news)).
    { rewrite <- HP, Hq. cbn. symmetry. apply Permutation_middle. }
    assert (b = flat o) as ->; [|eapply Permutation_cons_inv; exact Hq'].
    assert (Hin : In b (flat o :: bpool w0 ++ news)) by (eapply Permutation_in; [exact Hq'|left; reflexivity]).
    destruct Hin as [<-|Hin]; [reflexivity|]. exfalso. apply in_app_iff in Hin as [Hin|Hin].
    + apply Hni. rewrite <- Ha. apply in_map. exact Hin.
    + rewrite Forall_forall in Hf. destruct (Hf b Hin) as (n & Hn & Hfr). rewrite Ha in Hfr. apply (Ho n); [lia|exact Hfr].
  - inversion Hd; subst; assumption.
  - inversion Hx; subst; assumption.
Qed.

Lemma ext_kept w0 w : ext w0 [] w [] -> world_ok w /\ pool_kept c malloc w0 w.
Proof.
  intros X. split; [eapply ext_world_ok; exact X|]. destruct (x_perm _ _ _ _ X) as (news & Hp & Hf).
  split; [apply X|]. exists news. split; [exact Hp|exact Hf].
Qed.

Lemma tame_behaves run ip g f : tame run ip g f -> behaves (V := V) c malloc run ip g f.
Proof.
  intros H i o w w' E ([Hi Ho] & _) Hal. destruct (H _ _ _ _ E) as (Hp & Hn & Hfr & Hv).
  split; [|split; [|split]].
  - split; [rewrite Hp; exact Hi|]. rewrite Hp. eapply Forall_impl; [|exact Ho]. intros a. apply old_mono. lia.
  - split; [lia|]. exists []. rewrite app_nil_r, Hp. split; auto.
  - intros a _ _ Ha. apply Hfr. exact Ha.
  - apply Hv. exact Hal.
Qed.

(** ** One call of an operand *)
Definition kept (k : bool) (out : Z) (w0 w : world V) : Prop :=
  forall a, old w0 a -> ~ in_pool w0 a -> a <> out \/ k = true -> bheap w a = bheap w0 a.

Lemma op_step w0 lent w held k out run ip g f i o w1 :
  ext w0 lent w held -> kept k out w0 w -> old w0 out -> ~ in_pool w0 out ->
  (forall a, In a (addrs lent) -> a = out) ->
  run i o w = Ok w1 ->
  tame run ip g f \/ (behaves c malloc run ip g f /\ ~ in_pool w (a_addr i) /\ (lent = [] \/ k = false)) ->
  old w (a_addr i) -> a_addr i <> a_addr o \/ ip = true ->
  (a_addr o = out /\ k = false /\ lent = []) \/ (In (a_addr o) (addrs held) /\ a_addr o <> out) ->
  ext w0 lent w1 held /\ kept k out w0 w1 /\ (bn w <= bn w1)%nat
  /\ bheap w1 (a_addr o) = g (bheap w (a_addr o)) (f (bheap w (a_addr i))).
Proof.
  intros X K Hout Hnout Hl E Hrun Hi Hal Ho.
  assert (Hoo : old w (a_addr o) /\ ~ in_pool w (a_addr o)).
  { destruct Ho as [(-> & _ & ->)|[Hin _]].
    - split; [eapply old_mono; [apply X|exact Hout]|]. pose proof (ext_notin _ _ _ _ X Hout Hnout) as H.
      apply notin_app in H. apply H.
    - pose proof (x_nodup _ _ _ _ X) as Hd. pose proof (x_old _ _ _ _ X) as Hx. unfold addrs in Hd, Hx.
      rewrite map_app in Hd, Hx. apply NoDup_app_iff in Hd as (_ & _ & Hd). apply Forall_app in Hx as [Hx _].
      rewrite Forall_forall in Hx. split; [apply Hx; exact Hin|apply Hd; exact Hin]. }
  assert (Hne : forall a, old w0 a -> ~ in_pool w0 a -> a <> out \/ k = true -> a <> a_addr o).
  { intros a Ha Hna Hk ->. destruct Ho as [(He & Hkf & _)|[Hin Hno]]; [destruct Hk; congruence|].
    assert (Hin' : In (a_addr o) (addrs (held ++ bpool w))).
    { unfold addrs. rewrite map_app. apply in_app_iff. left. exact Hin. }
    destruct (ext_in _ _ _ _ _ X Hin') as [H|[H|H]]; auto. }
  destruct Hrun as [Ht|(Hb & Hip & Hlk)].
  - destruct (Ht _ _ _ _ E) as (Hp & Hn & Hfr & Hv).
    assert (Hw1 : world_ok w1 /\ pool_kept c malloc w w1).
    { destruct (ext_world_ok _ _ _ _ X) as [H1 H2]. split.
      - split; rewrite Hp; [exact H1|]. eapply Forall_impl; [|exact H2]. intros a. apply old_mono. lia.
      - split; [lia|]. exists []. rewrite app_nil_r, Hp. auto. }
    split; [eapply ext_op; [exact X|apply Hw1|apply Hw1]|]. split; [|split; [lia|apply Hv; exact Hal]].
    intros a Ha Hna Hk. rewrite Hfr; [apply K; assumption|]. eapply Hne; eauto.
  - destruct Hoo as [Ho1 Ho2].
    destruct (Hb _ _ _ _ E (conj (ext_world_ok _ _ _ _ X) (conj Hi (conj Ho1 (conj Hip Ho2)))) Hal) as (Hw1 & Hk1 & Hfr & Hv).
    split; [eapply ext_op; eauto|]. split; [|split; [apply Hk1|exact Hv]].
    intros a Ha Hna Hk. rewrite Hfr; [apply K; assumption| | |eapply Hne; eauto].
    + eapply old_mono; [apply X|exact Ha].
    + intros Hin. assert (Hin' : In a (addrs (held ++ bpool w))).
      { unfold addrs. rewrite map_app. apply in_app_iff. right. exact Hin. }
      destruct (ext_in _ _ _ _ _ X Hin') as [H|[H|H]]; auto.
      destruct Hlk as [->|Hkf]; [exact H|]. apply Hl in H. subst a. destruct Hk as [Hk|Hk]; congruence.
Qed.

(** ** The groups follow the operands *)
Definition inplaces (l : list (operand V)) : Prop := Forall (fun p => p_inplace p = true) l.

(** Groups from the innermost: each is one operand followed by g_n in-place ones. *)
Fixpoint fits (gs : list group) (ops : list (operand V)) : Prop :=
  match gs with
  | [] => ops = []
  | g :: gs' => exists op l ops', ops = op :: l ++ ops' /\ length l = g_n g /\ inplaces l /\ fits gs' ops'
  end.

(** The innermost group has in-place operands only. *)
Definition fits_all (gs : list group) (ops : list (operand V)) : Prop :=
  exists g gs' l ops', gs = g :: gs' /\ ops = l ++ ops' /\ length l = g_n g /\ inplaces l /\ fits gs' ops'.

Lemma requirements_fit ops : forall n al ct l, length l = n -> inplaces l ->
  fits_all (requirements ops n al ct) (l ++ ops).
Proof.
  induction ops as [|op ops IH]; intros n al ct l Hl Hi; cbn [requirements].
  - exists (G n al ct), [], l, []. repeat split; auto.
  - destruct (p_inplace op) eqn:Ep.
    + replace (l ++ op :: ops) with ((l ++ [op]) ++ ops) by (rewrite <- app_assoc; reflexivity).
      apply IH; [rewrite app_length; cbn; lia|]. apply Forall_app. split; [exact Hi|]. constructor; [exact Ep|constructor].
    + destruct (IH 0%nat (p_al_out op) (p_ct_out op) [] eq_refl (Forall_nil _)) as (g & gs & l' & ops' & -> & Ho & H1 & H2 & H3).
      cbn in Ho. exists (G n (al || p_al_in op) (ct || p_ct_in op)), (g :: gs), l, (op :: ops). repeat split; auto.
      exists op, l', ops'. rewrite <- Ho. auto.
Qed.

Lemma split_end {A} (l : list A) n : length l = S n -> exists l' x, l = l' ++ [x] /\ length l' = n.
Proof.
  intros H. destruct (@exists_last _ l) as (l' & x & ->); [destruct l; discriminate|].
  exists l', x. rewrite app_length in H. cbn in H. split; [reflexivity|lia].
Qed.

Lemma fits_split gs n a k al ct : forall ops, fits (gs ++ [G (S n) a k]) ops -> fits (gs ++ [G n a k; G 0 al ct]) ops.
Proof.
  induction gs as [|g gs IH]; intros ops; cbn [app fits].
  - intros (op & l & ops' & -> & Hl & Hi & ->). cbn in Hl. apply split_end in Hl as (l' & x & -> & Hl).
    apply Forall_app in Hi as [Hi1 Hi2].
    exists op, l', [x]. rewrite app_nil_r. repeat split; auto.
    exists x, [], []. repeat split; constructor.
  - intros (op & l & ops' & -> & Hl & Hi & Hf). exists op, l, ops'. repeat split; auto.
Qed.

Lemma split_last_fits gs al ct gs' ops : fits_all (rev gs) ops -> split_last gs al ct = Ok gs' -> fits_all (rev gs') ops.
Proof.
  unfold split_last. intros (g & r & l & ops' & Er & -> & Hl & Hi & Hf). rewrite Er.
  destruct g as [[|n] a k]; [discriminate|]. intros H; injection H as <-.
  rewrite rev_app_distr, rev_involutive. cbn. destruct l as [|op l]; [discriminate|]. cbn in Hl. injection Hl as Hl.
  apply Forall_cons_iff in Hi as [Hi1 Hi2].
  exists (G 0 al ct), (G n a k :: r), [], ((op :: l) ++ ops'). repeat split; auto; [constructor|].
  exists op, l, ops'. auto.
Qed.

Lemma split_first_fits gs al ct gs' ops : fits_all (rev gs) ops -> split_first gs al ct = Ok gs' -> fits_all (rev gs') ops.
Proof.
  unfold split_first. destruct gs as [|[[|n] a k] r]; [discriminate|discriminate|].
  intros (g & t & l & ops' & Er & -> & Hl & Hi & Hf) H; injection H as <-.
  cbn [rev] in *. rewrite <- app_assoc. cbn [app]. destruct (rev r) as [|g0 r'] eqn:Err.
  - cbn in Er. injection Er as <- <-. cbn in Hl, Hf. subst ops'. rewrite app_nil_r.
    apply split_end in Hl as (l' & x & -> & Hl). apply Forall_app in Hi as [Hi1 Hi2].
    exists (G n a k), [G 0 al ct], l', [x]. repeat split; auto. exists x, [], []. repeat split; constructor.
  - cbn in Er. injection Er as <- <-. exists g0, (r' ++ [G n a k; G 0 al ct]), l, ops'. repeat split; auto.
    apply fits_split. exact Hf.
Qed.

Lemma get_groups_fits ops i o pi gs : get_groups c ops i o pi = Ok gs -> fits_all (rev gs) (rev ops).
Proof.
  unfold get_groups. set (gs0 := rev (requirements (rev ops) 0 false false)).
  assert (H0 : fits_all (rev gs0) (rev ops)).
  { unfold gs0. rewrite rev_involutive. apply (requirements_fit (rev ops) 0 false false []); [reflexivity|constructor]. }
  destruct (need_split_last c ops gs0 i pi); cbn [rbind].
  - destruct (split_last _ _ _) as [gs1|] eqn:E; cbn [rbind]; [|discriminate].
    pose proof (split_last_fits _ _ _ _ _ H0 E) as H1.
    destruct (need_split_first _ _ _ _); [apply split_first_fits; exact H1|]. intros H; injection H as <-. exact H1.
  - destruct (need_split_first _ _ _ _); [apply split_first_fits; exact H0|]. intros H; injection H as <-. exact H0.
Qed.

(** Without in-place call, the innermost group is empty: the input is not overwritten. *)
Lemma requirements_nonempty (ops : list (operand V)) : forall n al ct, requirements ops n al ct <> [].
Proof. induction ops as [|op ops IH]; intros; cbn; [discriminate|]. destruct (p_inplace op); [apply IH|discriminate]. Qed.

Lemma get_groups_input (ops : list (operand V)) i o gs : ops <> [] -> get_groups c ops i o true = Ok gs ->
  exists al ct g gs', rev gs = G 0 al ct :: g :: gs'.
Proof.
  unfold get_groups, need_split_last. intros Hne.
  set (gs0 := rev (requirements (rev ops) 0 false false)).
  assert (HH : forall gs1, (exists al ct g gs', rev gs1 = G 0 al ct :: g :: gs') ->
    (if need_split_first c ops gs1 o then split_first gs1 (aligned_at c o) (a_contig o) else Ok gs1) = Ok gs ->
    exists al ct g gs', rev gs = G 0 al ct :: g :: gs').
  { intros gs1 (al & ct & g & gs' & Hr). destruct (need_split_first _ _ _ _).
    - unfold split_first. destruct gs1 as [|[[|n] a k] r]; [discriminate|discriminate|]. intros H; injection H as <-.
      cbn [rev] in *. rewrite <- app_assoc. destruct (rev r) as [|g0 r'].
      + cbn in Hr. discriminate.
      + cbn in Hr. injection Hr as -> Hr. cbn [app]. destruct (r' ++ [G n a k; G 0 (aligned_at c o) (a_contig o)]) as [|g1 r1] eqn:E.
        * destruct r'; discriminate.
        * eauto.
    - intros H; injection H as <-. eauto. }
  destruct (rev ops) as [|op r] eqn:Er.
  { apply (f_equal (@rev _)) in Er. rewrite rev_involutive in Er. contradiction. }
  destruct (p_inplace op) eqn:Ep.
  - cbn [andb orb]. unfold split_last. destruct (rev gs0) as [|[[|n] a k] r']; cbn [rbind]; try discriminate.
    apply HH. rewrite rev_app_distr. cbn. eauto.
  - assert (Hg : rev gs0 = G 0 (p_al_in op) (p_ct_in op) :: requirements r 0 (p_al_out op) (p_ct_out op)).
    { unfold gs0. rewrite rev_involutive. cbn. rewrite Ep. reflexivity. }
    cbn [andb orb]. destruct (_ || _); cbn [rbind].
    + unfold split_last. rewrite Hg. discriminate.
    + apply HH. rewrite Hg. pose proof (requirements_nonempty r 0 (p_al_out op) (p_ct_out op)).
      destruct (requirements r 0 _ _); [contradiction|]. eauto.
Qed.

(** If the outermost operand is out-of-place, nothing follows it in its group. *)
Lemma requirements_last (ops : list (operand V)) op : p_inplace op = false -> forall n al ct,
  exists gs a k, requirements (ops ++ [op]) n al ct = gs ++ [G 0 a k] /\ gs <> [].
Proof.
  intros Ep. induction ops as [|p ops IH]; intros n al ct; cbn.
  - rewrite Ep. eexists [_], _, _. split; [reflexivity|discriminate].
  - destruct (p_inplace p).
    + apply IH.
    + destruct (IH 0%nat (p_al_out p) (p_ct_out p)) as (gs & a & k & -> & _). exists (G n (al || p_al_in p) (ct || p_ct_in p) :: gs), a, k.
      split; [reflexivity|discriminate].
Qed.

Lemma get_groups_output (op : operand V) ops i o pi gs : p_inplace op = false -> get_groups c (op :: ops) i o pi = Ok gs ->
  g_n (first_group gs) = 0%nat.
Proof.
  intros Ep. unfold get_groups. cbn [rev].
  destruct (requirements_last (rev ops) op Ep 0 false false) as (r & a & k & -> & Hr).
  rewrite rev_app_distr. cbn [rev app].
  assert (HH : forall gs1, g_n (first_group gs1) = 0%nat ->
    (if need_split_first c (op :: ops) gs1 o then split_first gs1 (aligned_at c o) (a_contig o) else Ok gs1) = Ok gs ->
    g_n (first_group gs) = 0%nat).
  { intros gs1 H1. destruct (need_split_first _ _ _ _); [|intros H; injection H as <-; exact H1].
    unfold split_first. destruct gs1 as [|[[|n] ? ?] ?]; discriminate. }
  destruct (need_split_last _ _ _ _ _); cbn [rbind]; [|apply HH; reflexivity].
  unfold split_last. cbn [rev]. rewrite rev_involutive. destruct r as [|[[|n] a' k'] r]; [contradiction|discriminate|].
  cbn [app rbind]. apply HH. rewrite rev_app_distr. reflexivity.
Qed.

Lemma get_bufsizes_fst gs : forall sizes lst, map fst (get_bufsizes sizes lst gs) = gs.
Proof.
  induction gs as [|g gs IH]; intros; [reflexivity|]. destruct gs as [|g' gs]; [reflexivity|].
  cbn [get_bufsizes map fst]. f_equal. apply IH.
Qed.

Lemma view_addr b sh it o : view b sh it = Ok o -> a_addr o = a_addr b.
Proof.
  unfold view. destruct (a_contig b).
  - destruct (_ <=? _); [|discriminate]. intros H; injection H as <-. reflexivity.
  - destruct (_ && _); [|discriminate]. intros H; injection H as <-. reflexivity.
Qed.

(** ** The loops of CompositionOperator.direct *)
Section Loops.
Variables (oper : V -> V -> V) (tm : bool).

Definition sem (op : operand V) (f : V -> V) : Prop :=
  means c malloc oper op f /\ (tm = true -> tamely_means oper op f).

Definition applyl (fs : list (V -> V)) (x : V) : V := fold_left (fun y f => f y) fs x.

Lemma run_inplace_spec w0 lent held k out o_ : old w0 out -> ~ in_pool w0 out ->
  (forall a, In a (addrs lent) -> a = out) -> tm = true \/ lent = [] \/ k = false ->
  (a_addr o_ = out /\ k = false /\ lent = []) \/ (In (a_addr o_) (addrs held) /\ a_addr o_ <> out) ->
  forall l ops fs i w i' ops' w', Forall2 sem (l ++ ops) fs -> inplaces l ->
  a_addr i = a_addr o_ -> ext w0 lent w held -> kept k out w0 w ->
  run_inplace (length l) (l ++ ops) i o_ w = Ok (i', ops', w') ->
  exists fs1 fs2, fs = fs1 ++ fs2 /\ ops' = ops /\ Forall2 sem ops fs2 /\ a_addr i' = a_addr o_
    /\ ext w0 lent w' held /\ kept k out w0 w' /\ bheap w' (a_addr o_) = applyl fs1 (bheap w (a_addr i)).
Proof.
  intros Hout Hnout Hl Htm Ho. induction l as [|op l IH]; intros ops fs i w i' ops' w' HF Hip Hi X K E.
  - cbn in E. injection E as <- <- <-. exists [], fs. rewrite <- Hi. do 3 (split; [auto|]). auto.
  - cbn [length app run_inplace] in E. destruct (view o_ _ _) as [o|] eqn:Ev; cbn [rbind] in E; [|discriminate].
    destruct (p_exec op false i o w) as [w1|] eqn:Ee; cbn [rbind] in E; [|discriminate].
    pose proof (view_addr _ _ _ _ Ev) as Hoa.
    apply Forall_cons_iff in Hip as [Hop Hip].
    cbn [app] in HF. inversion HF as [|? f ? fs' [[Hm _] Ht] HF']; subst.
    assert (Hi' : old w (a_addr i) /\ ~ in_pool w (a_addr i)).
    { rewrite Hi. destruct Ho as [(-> & _ & ->)|[Hin _]].
      - split; [eapply old_mono; [apply X|exact Hout]|]. pose proof (ext_notin _ _ _ _ X Hout Hnout) as H.
        apply notin_app in H. apply H.
      - pose proof (x_nodup _ _ _ _ X) as Hd. pose proof (x_old _ _ _ _ X) as Hx. unfold addrs in Hd, Hx.
        rewrite map_app in Hd, Hx. apply NoDup_app_iff in Hd as (_ & _ & Hd). apply Forall_app in Hx as [Hx _].
        rewrite Forall_forall in Hx. split; [apply Hx; exact Hin|apply Hd; exact Hin]. }
    destruct (op_step w0 lent w held k out (p_exec op false) (p_inplace op) assign f i o w1) as (X1 & K1 & _ & Hv); auto.
    + destruct Htm as [Htm|Htm]; [left; apply Ht; exact Htm|right]. split; [exact Hm|]. split; [apply Hi'|exact Htm].
    + apply Hi'.
    + rewrite Hoa. exact Ho.
    + destruct (IH ops fs' o w1 i' ops' w') as (fs1 & fs2 & -> & -> & H1 & H2 & H3 & H4 & H5); auto.
      exists (f :: fs1), fs2. do 6 (split; [auto|]). rewrite H5. cbn. f_equal. rewrite Hv. reflexivity.
Qed.

Lemma ext_held_perm w0 lent w held held' : Permutation held held' -> ext w0 lent w held -> ext w0 lent w held'.
Proof.
  intros P X. assert (HP : Permutation (held ++ bpool w) (held' ++ bpool w)) by (apply Permutation_app_tail; exact P).
  constructor; try apply X.
  - destruct (x_perm _ _ _ _ X) as (news & Hp & Hf). exists news. split; [rewrite <- HP; exact Hp|exact Hf].
  - eapply Permutation_NoDup; [apply (Permutation_map a_addr HP)|apply X].
  - eapply Permutation_Forall; [apply (Permutation_map a_addr HP)|apply X].
Qed.

Lemma kept_weaken k out w0 w : kept k out w0 w -> kept false out w0 w.
Proof. intros K a H1 H2 [H3|H3]; [apply K; auto|discriminate]. Qed.

Section Groups.
Variables (input output : arr) (w0 : world V) (asg update : bool) (N : nat).
Notation inp := (a_addr input).
Notation out := (a_addr output).
Hypothesis (Hw0 : world_ok w0) (Hin : old w0 inp) (Hnin : ~ in_pool w0 inp) (Hout : old w0 out) (Hnout : ~ in_pool w0 out).

Definition where_ (ngs : nat) (i_ : arr) (held : list arr) : Prop :=
  (S ngs = N /\ held = [] /\ a_addr i_ = inp)
  \/ ((S ngs < N)%nat /\ (held = [] /\ a_addr i_ = out /\ asg = true /\ Nat.even ngs = true \/ held = [flat i_])).

Lemma where_ok ngs i_ held w : where_ ngs i_ held -> ext w0 [] w held -> old w (a_addr i_) /\ ~ in_pool w (a_addr i_).
Proof.
  intros Hh X.
  assert (HH : forall a, old w0 a -> ~ in_pool w0 a -> old w a /\ ~ in_pool w a).
  { intros a H1 H2. split; [eapply old_mono; [apply X|exact H1]|]. pose proof (ext_notin _ _ _ _ X H1 H2) as H.
    apply notin_app in H. apply H. }
  destruct Hh as [(_ & _ & ->)|[_ [(_ & -> & _)| ->]]]; auto.
  pose proof (x_nodup _ _ _ _ X) as Hd. pose proof (x_old _ _ _ _ X) as Hx. cbn [app] in Hd, Hx.
  rewrite flat_addrs in Hd, Hx. inversion Hd; subst. inversion Hx; subst. auto.
Qed.

(** "set the input buffer back in the pool" *)
Lemma give_back ngs i_ held lent w w1 rest :
  where_ (S ngs) i_ held -> ext w0 lent w (held ++ rest) -> (forall a, In a (addrs held) -> a <> out) ->
  (if (Nat.ltb ngs (N - 2) || negb (negb (isalias input output))) && negb (isalias i_ output)
   then w_add i_ w else Ok w) = Ok w1 ->
  ext w0 lent w1 rest /\ bheap w1 = bheap w.
Proof.
  intros Hh X Hno. unfold isalias. rewrite negb_involutive. destruct Hh as [(HN & -> & Hi)|[HN [(-> & Hi & _)| ->]]].
  - rewrite Hi. replace (Nat.ltb ngs (N - 2)) with false by (symmetry; apply Nat.ltb_ge; lia).
    destruct (inp =? out); cbn; intros H; injection H as <-; auto.
  - rewrite Hi, Z.eqb_refl, andb_false_r. intros H; injection H as <-; auto.
  - replace (Nat.ltb ngs (N - 2)) with true by (symmetry; apply Nat.ltb_lt; lia).
    assert (a_addr i_ <> out). { apply Hno. rewrite flat_addrs. left. reflexivity. }
    replace (a_addr i_ =? out) with false by (symmetry; apply Z.eqb_neq; assumption). cbn [orb andb negb].
    intros H'. destruct (ext_give _ _ _ _ _ _ X H') as (H1 & H2 & _). auto.
Qed.

Definition value_op : V -> V -> V := if asg then assign else oper.

Lemma run_groups_spec : tm = true \/ ((N <= 3)%nat /\ inp <> out /\ (asg = true \/ (N <= 2)%nat)) ->
  forall gs ops fs i i_ w held w',
  Forall2 sem ops fs -> fits (map fst gs) ops -> gs <> [] ->
  ext w0 [] w held -> kept (negb asg) out w0 w -> a_addr i = a_addr i_ -> where_ (length gs) i_ held ->
  inp <> out \/ (asg = true /\ (N <> 2%nat \/ inplaces ops)) ->
  asg = true \/ (update = true /\ g_n (last (map fst gs) (G 0 false false)) = 0%nat
                 /\ forall l op, ops = l ++ [op] -> p_update op = true) ->
  run_groups c malloc input output (negb (isalias input output)) asg update N gs i i_ ops w = Ok w' ->
  ext w0 [] w' [] /\ kept false out w0 w' /\ bheap w' out = value_op (bheap w0 out) (applyl fs (bheap w (a_addr i))).
Proof.
  intros Htm. induction gs as [|[g bufsize] gs IH]; intros ops fs i i_ w held w' HF Hfit Hne X K Hii Hwh Hal Hup E;
    [contradiction|clear Hne].
  cbn [map fst fits] in Hfit. destruct Hfit as (op & l & ops' & -> & Hl & Hip & Hfit).
  inversion HF as [|? f ? fs' Hsem HF']; subst. destruct Hsem as [[Hm Hmu] Ht].
  cbn [run_groups] in E. unfold run_group in E at 1. rewrite <- Hl in E.
  pose proof (where_ok _ _ _ _ Hwh X) as [Hio Hip'].
  set (reuse := (asg && Nat.even (length gs) && iscompatible c output (bytes_req bufsize (g_al g) (g_ct g)) None
                 && negb (isalias output i)) || Nat.eqb (length gs) 0) in *.
  assert (Hreuse : reuse = true -> length gs = 0%nat
            \/ (asg = true /\ Nat.even (length gs) = true /\ a_addr i <> out)).
  { unfold reuse. destruct (Nat.eqb_spec (length gs) 0); [auto|]. rewrite orb_false_r. intros H. right.
    apply andb_prop in H as [H H4]. apply andb_prop in H as [H _]. apply andb_prop in H as [H1 H2].
    repeat split; auto. unfold isalias in H4. intros Heq. rewrite Heq, Z.eqb_refl in H4. discriminate. }
  assert (Hnreuse : reuse = false -> length gs <> 0%nat).
  { unfold reuse. destruct (Nat.eqb_spec (length gs) 0); [rewrite orb_true_r; discriminate|auto]. }
  assert (Hheldout : forall a, In a (addrs held) -> a <> out).
  { intros a Ha ->. pose proof (ext_notin _ _ _ _ X Hout Hnout) as H. apply notin_app in H as [H _]. exact (H Ha). }
  destruct reuse eqn:Ereuse.
  - (* the output is used *)
    specialize (Hreuse eq_refl). clear Hnreuse. cbn [rbind] in E.
    destruct (view output _ _) as [o|] eqn:Ev; cbn [rbind] in E; [|discriminate].
    pose proof (view_addr _ _ _ _ Ev) as Hoa.
    set (flag := match l ++ ops' with [] => update && negb asg | _ => false end) in *.
    assert (Hflag : (flag = false /\ asg = true) \/ (flag = true /\ asg = false /\ l = [] /\ gs = [] /\ p_update op = true)).
    { unfold flag. destruct Hup as [Hasg|(Hu & Hg & Hpu)].
      - left. rewrite Hasg, andb_false_r. destruct (l ++ ops'); auto.
      - destruct asg; [left; rewrite andb_false_r; destruct (l ++ ops'); auto|]. right.
        destruct Hreuse as [Hz|(H & _)]; [|discriminate]. destruct gs; [|discriminate]. cbn in Hg, Hfit. subst ops'.
        rewrite Hg in Hl. destruct l; [|discriminate]. cbn. rewrite Hu. repeat split; auto. apply (Hpu [] op). reflexivity. }
    destruct (p_exec op flag i o w) as [w1|] eqn:Ee; cbn [rbind] in E; [|discriminate].
    assert (Halias : a_addr i <> a_addr o \/ p_inplace op = true).
    { rewrite Hoa. destruct Hreuse as [Hz|(_ & _ & H)]; [|auto]. rewrite Hz in *. rewrite Hii.
      destruct Hwh as [(HN & _ & Hi)|[HN [(_ & _ & _ & Hev)|Hheld]]].
      - cbn [length] in HN. rewrite Hz in HN. rewrite Hi. destruct Hal as [H|(_ & [H|H])]; [auto|clear - HN H; lia|].
        apply Forall_cons_iff in H as [H _]. auto.
      - cbn [length] in Hev. rewrite Hz in Hev. discriminate.
      - left. apply Hheldout. rewrite Hheld. cbn. rewrite flat_addr. auto. }
    assert (Hstep : ext w0 [] w1 held /\ kept false out w0 w1 /\ (bn w <= bn w1)%nat
              /\ bheap w1 (a_addr o) = (if flag then oper else assign) (bheap w (a_addr o)) (f (bheap w (a_addr i)))).
    { eapply (op_step w0 [] w held false out (p_exec op flag) (p_inplace op)); eauto.
      - eapply kept_weaken; eauto.
      - intros a [].
      - destruct Hflag as [(-> & _)|(-> & _ & _ & _ & Hpu)].
        + right. split; [exact Hm|]. rewrite Hii. auto.
        + right. split; [exact (Hmu Hpu)|]. rewrite Hii. auto.
      - rewrite Hii. exact Hio. }
    destruct Hstep as (X1 & K1 & _ & Hv).
    match type of E with context [if ?b then w_add i_ w1 else Ok w1] =>
      destruct (if b then w_add i_ w1 else Ok w1) as [w2|] eqn:Eg end; cbn [rbind] in E; [|discriminate].
    rewrite <- (app_nil_r held) in X1. destruct (give_back _ _ _ _ _ _ _ Hwh X1 Hheldout Eg) as (X2 & Hh2).
    assert (K2 : kept false out w0 w2). { intros a Ha1 Ha2 Ha3. rewrite Hh2. apply K1; auto. }
    destruct (run_inplace (length l) (l ++ ops') o output w2) as [[[i' ops''] w3]|] eqn:Ei; cbn [rbind] in E; [|discriminate].
    destruct (run_inplace_spec w0 [] [] false out output Hout Hnout (fun a H => match H with end)
      (or_intror (or_introl eq_refl)) (or_introl (conj eq_refl (conj eq_refl eq_refl))) l ops' fs' o w2 i' ops'' w3
      HF' Hip Hoa X2 K2 Ei) as (fs1 & fs2 & -> & -> & HF2 & Hi' & X3 & K3 & Hv3).
    rewrite Hh2, Hv in Hv3.
    destruct gs as [|g1 gs].
    + cbn in E. injection E as <-. split; [exact X3|]. split; [exact K3|]. rewrite Hv3. cbn in Hfit. subst ops'.
      inversion HF2; subst. rewrite app_nil_r. unfold value_op.
      destruct Hflag as [(-> & ->)|(-> & -> & -> & _ & _)]; [reflexivity|].
      assert (fs1 = []) as ->. { rewrite !app_nil_r in HF'. inversion HF'. reflexivity. }
      cbn. rewrite Hoa. f_equal. apply K; auto.
    + destruct Hreuse as [Hz|(Hasg & Hev & _)]; [discriminate|].
      assert (HX : ext w0 [] w' [] /\ kept false out w0 w'
                /\ bheap w' out = value_op (bheap w0 out) (applyl fs2 (bheap w3 (a_addr i')))).
      { apply (IH ops' fs2 i' output w3 [] w'); auto.
        - discriminate.
        - rewrite Hasg. exact K3.
        - right. split; [|left; auto]. destruct Hwh as [(HN & _)|[HN _]]; cbn [length] in HN |- *; clear - HN; lia.
        - destruct Hal as [H|(H1 & [H2|H2])]; auto. right. split; auto. right.
          apply Forall_cons_iff in H2 as [_ H2]. apply Forall_app in H2. apply H2. }
      destruct HX as (H1 & H2 & H3). split; [exact H1|]. split; [exact H2|]. rewrite H3, Hi', Hv3.
      destruct Hflag as [(-> & _)|(_ & H & _)]; [|congruence]. unfold applyl. cbn [fold_left]. rewrite fold_left_app. reflexivity.
  - (* a buffer is taken from the pool *)
    specialize (Hnreuse eq_refl). clear Hreuse.
    destruct (w_extract c malloc (bytes_req bufsize (g_al g) (g_ct g)) w) as [b w1] eqn:Ex.
    destruct (ext_extract _ _ _ _ _ _ _ X Ex) as (X1 & Hh1 & Hn1).
    destruct (w_add output w1) as [w2|] eqn:Ea; cbn [rbind] in E; [|discriminate].
    pose proof (ext_notin _ _ _ _ X1 Hout Hnout) as Hno1.
    destruct (ext_lend _ _ _ _ _ X1 (old_mono _ _ _ (x_n _ _ _ _ X1) Hout) Hno1 Ea) as (X2 & Hh2 & Hn2).
    destruct (view b _ _) as [o|] eqn:Ev; cbn [rbind] in E; [|discriminate].
    pose proof (view_addr _ _ _ _ Ev) as Hoa.
    assert (Hops' : ops' <> []).
    { destruct gs as [|g1 gs]; [cbn in Hnreuse; congruence|]. cbn in Hfit. destruct Hfit as (? & ? & ? & -> & _). discriminate. }
    replace (match l ++ ops' with [] => update && negb asg | _ => false end) with false in E
      by (destruct (l ++ ops') eqn:Eo; [apply app_eq_nil in Eo as [_ Eo]; contradiction|reflexivity]).
    destruct (p_exec op false i o w2) as [w3|] eqn:Ee; cbn [rbind] in E; [|discriminate].
    assert (Hbout : a_addr b <> out).
    { intros Heq. apply Hno1. cbn [app]. rewrite flat_addrs. left. exact Heq. }
    assert (K2 : kept (negb asg) out w0 w2). { intros a Ha1 Ha2 Ha3. rewrite Hh2, Hh1. apply K; auto. }
    assert (Hlent : forall a, In a (addrs [flat output]) -> a = out).
    { intros a. rewrite flat_addrs. intros [<-|[]]. reflexivity. }
    assert (HNw : (2 <= length gs + 1)%nat /\ (S (length gs) < N)%nat).
    { destruct Hwh as [(HN & _)|[HN _]]; cbn [length] in HN; clear - HN Hnreuse; lia. }
    assert (Hib : a_addr i <> a_addr b).
    { rewrite Hii. pose proof (x_nodup _ _ _ _ X1) as Hd. cbn [app] in Hd. rewrite flat_addrs in Hd.
      inversion Hd as [|? ? Hnb _]; subst.
      pose proof (ext_notin _ _ _ _ X1 Hin Hnin) as Hni1. cbn [app] in Hni1, Hno1. rewrite flat_addrs in Hni1, Hno1.
      destruct Hwh as [(_ & _ & ->)|[_ [(_ & -> & _)|Hheld]]]; intros Heq.
      - apply Hni1. left. auto.
      - apply Hno1. left. auto.
      - apply Hnb. rewrite Hheld. cbn. rewrite flat_addr. left. exact Heq. }
    assert (Hk : tm = true \/ (a_addr i = inp /\ inp <> out /\ asg = true)).
    { destruct Htm as [Htm|(HN3 & Hio' & Hasg)]; [auto|]. right.
      destruct Hwh as [(HN & _ & Hi)|[HN _]]; cbn [length] in HN; [|clear - HN HN3 Hnreuse; lia].
      rewrite Hii. repeat split; auto. destruct Hasg as [Hs|Hs]; [auto|clear - Hs HN Hnreuse; lia]. }
    assert (Hstep : ext w0 [flat output] w3 (flat b :: held) /\ kept (negb asg) out w0 w3 /\ (bn w2 <= bn w3)%nat
              /\ bheap w3 (a_addr o) = assign (bheap w2 (a_addr o)) (f (bheap w2 (a_addr i)))).
    { eapply (op_step w0 [flat output] w2 (flat b :: held) (negb asg) out (p_exec op false) (p_inplace op)); eauto.
      - destruct Hk as [Hk|(Hi & Hio' & Hasg)]; [left; apply Ht; exact Hk|]. right. split; [exact Hm|]. split.
        + rewrite Hi. intros Hc. assert (Hc' : In inp (addrs ((flat b :: held) ++ bpool w2))).
          { unfold addrs. rewrite map_app. apply in_app_iff. right. exact Hc. }
          destruct (ext_in _ _ _ _ _ X2 Hc') as [H|[H|H]]; auto.
        + right. rewrite Hasg. reflexivity.
      - eapply old_mono; [|rewrite Hii; exact Hio]. clear - Hn1 Hn2; lia.
      - rewrite Hoa. auto.
      - right. rewrite Hoa, flat_addrs. split; [left; reflexivity|exact Hbout]. }
    destruct Hstep as (X3 & K3 & _ & Hv).
    match type of E with context [if ?b then w_add i_ w3 else Ok w3] =>
      destruct (if b then w_add i_ w3 else Ok w3) as [w4|] eqn:Eg end; cbn [rbind] in E; [|discriminate].
    assert (X3' : ext w0 [flat output] w3 (held ++ [flat b])).
    { eapply ext_held_perm; [|exact X3]. apply Permutation_cons_append. }
    destruct (give_back _ _ _ _ _ _ _ Hwh X3' Hheldout Eg) as (X4 & Hh4).
    assert (K4 : kept (negb asg) out w0 w4). { intros a Ha1 Ha2 Ha3. rewrite Hh4. apply K3; auto. }
    destruct (run_inplace (length l) (l ++ ops') o b w4) as [[[i' ops''] w5]|] eqn:Ei; cbn [rbind] in E; [|discriminate].
    assert (Hk' : tm = true \/ [flat output] = [] \/ negb asg = false).
    { destruct Hk as [Hk|(_ & _ & ->)]; auto. }
    assert (Hb' : a_addr b = out /\ negb asg = false /\ [flat output] = [] \/ In (a_addr b) (addrs [flat b]) /\ a_addr b <> out).
    { right. rewrite flat_addrs. split; [left; reflexivity|exact Hbout]. }
    destruct (run_inplace_spec w0 [flat output] [flat b] (negb asg) out b Hout Hnout Hlent Hk' Hb' l ops' fs' o w4 i' ops'' w5
      HF' Hip Hoa X4 K4 Ei) as (fs1 & fs2 & -> & -> & HF2 & Hi' & X5 & K5 & Hv5).
    destruct (w_remove output w5) as [w6|] eqn:Er; cbn [rbind] in E; [|discriminate].
    destruct (ext_unlend _ _ _ _ _ Hw0 Hout Hnout X5 Er) as (X6 & Hh6 & _).
    assert (HX : ext w0 [] w' [] /\ kept false out w0 w'
              /\ bheap w' out = value_op (bheap w0 out) (applyl fs2 (bheap w6 (a_addr i')))).
    { apply (IH ops' fs2 i' b w6 [flat b] w'); auto.
      - destruct gs; [cbn in Hnreuse; congruence|discriminate].
      - intros a Ha1 Ha2 Ha3. rewrite Hh6. apply K5; auto.
      - right. split; [clear - HNw; lia|right; reflexivity].
      - destruct Hal as [H|(H1 & [H2|H2])]; auto. right. split; auto. right.
        apply Forall_cons_iff in H2 as [_ H2]. apply Forall_app in H2. apply H2.
      - destruct Hup as [H|(H1 & H2 & H3)]; [auto|right]. split; [exact H1|]. split.
        + destruct gs; [cbn in Hnreuse; congruence|]. exact H2.
        + intros l0 op0 ->. apply (H3 (op :: l ++ l0) op0). cbn. rewrite <- app_assoc. reflexivity. }
    destruct HX as (H1 & H2 & H3). split; [exact H1|]. split; [exact H2|]. rewrite H3, Hi', Hh6, Hv5, Hh4, Hv, Hh2, Hh1.
    unfold applyl. cbn [fold_left]. rewrite fold_left_app. reflexivity.
Qed.
End Groups.

Lemma compose_applyl fs x : compose fs x = applyl (rev fs) x.
Proof. unfold compose, applyl. rewrite <- (rev_involutive fs) at 1. apply fold_left_rev_right. Qed.

Lemma Forall2_rev {A B} (R : A -> B -> Prop) l l' : Forall2 R l l' -> Forall2 R (rev l) (rev l').
Proof.
  induction 1 as [|a b l l' H1 H2 IH]; cbn; [constructor|]. apply Forall2_app; [exact IH|]. constructor; [exact H1|constructor].
Qed.

Lemma inplaces_rev l : inplaces l -> inplaces (rev l).
Proof. unfold inplaces. apply Forall_rev. Qed.

Lemma rev_cons_hd {A} (l : list A) x r d : rev l = x :: r -> r <> [] -> last r d = hd d l.
Proof.
  intros H Hr. apply (f_equal (@rev _)) in H. rewrite rev_involutive in H. subst l. cbn.
  destruct (exists_last Hr) as (r' & y & ->). rewrite last_last, rev_app_distr. reflexivity.
Qed.

Lemma composition_spec ops fs asg input output w0 w' :
  ops <> [] -> Forall2 sem ops fs -> ready c malloc input output w0 ->
  let N := nbuffers c ops input output in
  tm = true \/ ((N <= 3)%nat /\ a_addr input <> a_addr output /\ (asg = true \/ (N <= 2)%nat)) ->
  a_addr input <> a_addr output \/ (asg = true /\ (N <> 2%nat \/ inplaces ops)) ->
  asg = true \/ (exists op ops', ops = op :: ops' /\ p_update op = true /\ p_inplace op = false) ->
  composition_direct c malloc ops asg input output w0 = Ok w' ->
  computed c malloc (value_op asg) (compose fs) input output w0 w'.
Proof.
  intros Hne HF (Hw0 & Hin & Hout & Hnin & Hnout) N Htm Hal Hup E.
  unfold N, nbuffers in *. clear N. unfold composition_direct in E.
  destruct (get_groups c ops input output (negb (isalias input output))) as [gs|] eqn:Eg; cbn [rbind] in E; [|discriminate].
  pose proof (get_groups_fits _ _ _ _ _ Eg) as (g & gsr & l & ops' & Hr & Hops & Hl & Hip & Hfit).
  set (sizes := map p_size ops) in *. set (lst := last sizes 0) in *.
  destruct (rev (get_bufsizes sizes lst gs)) as [|[g' b] gs'] eqn:Eb.
  { apply (f_equal (map fst)) in Eb. rewrite map_rev, get_bufsizes_fst, Hr in Eb. discriminate. }
  assert (Hgs' : g' = g /\ map fst gs' = gsr).
  { apply (f_equal (map fst)) in Eb. rewrite map_rev, get_bufsizes_fst, Hr in Eb. cbn in Eb. injection Eb as H1 H2. auto. }
  destruct Hgs' as [-> Hgs']. rewrite <- Hl in E.
  assert (HN : length gs = S (length gs')).
  { rewrite <- (rev_length gs), Hr. cbn. rewrite <- Hgs', map_length. reflexivity. }
  set (o_ := if isalias input output then if nbytes input <? nbytes output then output else input else output) in *.
  assert (HFr : Forall2 sem (l ++ ops') (rev fs)) by (rewrite <- Hops; apply Forall2_rev; exact HF).
  rewrite Hops in E.
  destruct (run_inplace (length l) (l ++ ops') input o_ w0) as [[[i' ops''] w1]|] eqn:Ei; cbn [rbind] in E; [|discriminate].
  assert (H1 : exists fs1 fs2, rev fs = fs1 ++ fs2 /\ ops'' = ops' /\ Forall2 sem ops' fs2 /\ a_addr i' = a_addr input
    /\ ext w0 [] w1 [] /\ kept (negb asg) (a_addr output) w0 w1
    /\ bheap w1 (a_addr input) = applyl fs1 (bheap w0 (a_addr input))).
  { destruct (Z.eqb_spec (a_addr input) (a_addr output)) as [Heq|Hneq].
    - destruct Hal as [Hal|[Hasg _]]; [contradiction|].
      assert (Ho_ : a_addr input = a_addr o_).
      { unfold o_. destruct (isalias input output); [|exact Heq]. destruct (_ <? _); [exact Heq|reflexivity]. }
      destruct (run_inplace_spec w0 [] [] false (a_addr output) o_ Hout Hnout (fun a H => match H with end)
        (or_intror (or_introl eq_refl)) (or_introl (conj (eq_trans (eq_sym Ho_) Heq) (conj eq_refl eq_refl)))
        l ops' (rev fs) input w0 i' ops'' w1 HFr Hip Ho_ (ext_refl w0 Hw0) (fun a _ _ _ => eq_refl) Ei)
        as (fs1 & fs2 & H1 & H2 & H3 & H4 & H5 & H6 & H7).
      exists fs1, fs2. rewrite Hasg, Ho_ in *. do 6 (split; [assumption|]). exact H7.
    - unfold isalias in Eg. replace (a_addr input =? a_addr output) with false in Eg by (symmetry; apply Z.eqb_neq; exact Hneq).
      cbn in Eg. destruct (get_groups_input _ _ _ _ Hne Eg) as (al & ct & g1 & gs1 & Hr1). rewrite Hr in Hr1.
      injection Hr1 as -> _. cbn in Hl. destruct l; [|discriminate]. cbn in Ei. injection Ei as <- <- <-.
      exists [], (rev fs). do 4 (split; [auto|]). split; [apply ext_refl; exact Hw0|]. split; [|reflexivity].
      intros a _ _ _. reflexivity. }
  destruct H1 as (fs1 & fs2 & Hfs & -> & HF2 & Hi' & X1 & K1 & Hv1).
  assert (Hfin : ext w0 [] w' [] /\ kept false (a_addr output) w0 w'
    /\ bheap w' (a_addr output) = value_op asg (bheap w0 (a_addr output)) (compose fs (bheap w0 (a_addr input)))).
  { rewrite compose_applyl, Hfs. unfold applyl. rewrite fold_left_app. fold (applyl fs1 (bheap w0 (a_addr input))).
    rewrite <- Hv1, <- Hi'. destruct gs' as [|gg gs'].
    - cbn in E. injection E as <-. cbn in Hgs'. subst gsr. cbn in Hfit. subst ops'. inversion HF2; subst.
      destruct (Z.eqb_spec (a_addr input) (a_addr output)) as [Heq|Hneq].
      + destruct Hal as [Hal|[-> _]]; [contradiction|]. rewrite <- Heq, Hi'. split; [exact X1|]. split; [rewrite Heq; exact K1|reflexivity].
      + unfold isalias in Eg. replace (a_addr input =? a_addr output) with false in Eg by (symmetry; apply Z.eqb_neq; exact Hneq).
        cbn in Eg. destruct (get_groups_input _ _ _ _ Hne Eg) as (al & ct & g1 & gs1 & Hr1). rewrite Hr in Hr1. discriminate.
    - eapply (run_groups_spec input output w0 asg _ (length gs) Hw0 Hin Hnin Hout Hnout Htm (gg :: gs') ops' fs2 i' input w1 []); eauto.
      + rewrite Hgs'. exact Hfit.
      + discriminate.
      + left. repeat split; auto.
      + destruct Hal as [Hal|[Ha1 Ha2]]; [auto|]. right. split; [exact Ha1|]. destruct Ha2 as [Ha2|Ha2]; [auto|]. right.
        apply inplaces_rev in Ha2. rewrite Hops in Ha2. apply Forall_app in Ha2. apply Ha2.
      + destruct Hup as [Hup|(op & ops1 & -> & Hu & Hpi)]; [auto|]. right. split; [exact Hu|]. split.
        * rewrite Hgs'. rewrite (rev_cons_hd _ _ _ _ Hr); [|rewrite <- Hgs'; discriminate].
          exact (get_groups_output _ _ _ _ _ _ Hpi Eg).
        * intros l0 op0 ->. cbn in Hops. rewrite app_assoc in Hops. apply app_inj_tail in Hops as [_ <-]. exact Hu. }
  destruct Hfin as (X & K & Hv). destruct (ext_kept _ _ X) as [H1 H2]. split; [exact H1|]. split; [exact H2|]. split; [|exact Hv].
  intros a Ha1 Ha2 Ha3. apply K; auto.
Qed.

(** ** CommutativeCompositeOperator.direct *)
Lemma take_first_spec {A} (f : A -> bool) l l1 y l2 : take_first f l = Some (l1, y, l2) ->
  l = l1 ++ y :: l2 /\ f y = true /\ Forall (fun x => f x = false) l1.
Proof.
  revert l1. induction l as [|x l IH]; intros l1; cbn; [discriminate|]. destruct (f x) eqn:E.
  - intros H; injection H as <- <- <-. auto.
  - destruct (take_first f l) as [[[l1' y'] l2']|] eqn:Et; [|discriminate]. intros H; injection H as <- <- <-.
    destruct (IH _ eq_refl) as (-> & H1 & H2). auto.
Qed.

Lemma take_first_none {A} (f : A -> bool) l : take_first f l = None -> Forall (fun x => f x = false) l.
Proof.
  induction l as [|x l IH]; cbn; [constructor|]. destruct (f x) eqn:E; [discriminate|].
  destruct (take_first f l) as [[[? ?] ?]|]; [discriminate|]. auto.
Qed.

Lemma exchange_perm (ops : list (operand V)) : Permutation (exchange ops) ops.
Proof.
  unfold exchange. destruct (take_first _ ops) as [[[[|x l1] y] l2]|] eqn:E; auto.
  apply take_first_spec in E as (-> & _ & _). cbn.
  etransitivity; [apply perm_skip; symmetry; apply Permutation_middle|].
  etransitivity; [apply perm_swap|]. apply perm_skip. apply Permutation_middle.
Qed.

Lemma Forall2_perm {A B} (R : A -> B -> Prop) l1 l2 : Permutation l1 l2 -> forall m2, Forall2 R l2 m2 ->
  exists m1, Permutation m1 m2 /\ Forall2 R l1 m1.
Proof.
  induction 1 as [|x l1 l2 P IH|x y l|l1 l2 l3 P1 IH1 P2 IH2]; intros m2 H.
  - inversion H; subst. exists []. auto.
  - inversion H as [|? b ? m Hb Hm]; subst. destruct (IH _ Hm) as (m1 & H1 & H2). exists (b :: m1). auto.
  - inversion H as [|? b ? m Hb Hm]; subst. inversion Hm as [|? b' ? m' Hb' Hm']; subst.
    exists (b' :: b :: m'). split; [apply perm_swap|]. auto.
  - destruct (IH2 _ H) as (m & H1 & H2). destruct (IH1 _ H2) as (m1 & H3 & H4). exists m1. split; [etransitivity; eauto|auto].
Qed.

Lemma run_updates_spec input output w0 held buf :
  old w0 (a_addr input) -> ~ in_pool w0 (a_addr input) -> old w0 (a_addr output) -> ~ in_pool w0 (a_addr output) ->
  a_addr input <> a_addr output ->
  (forall b, buf = Some b -> In (a_addr b) (addrs held)) ->
  forall ops fs w w', Forall2 sem ops fs -> ext w0 [] w held -> kept false (a_addr output) w0 w ->
  run_updates oper ops input output buf w = Ok w' ->
  ext w0 [] w' held /\ kept false (a_addr output) w0 w'
  /\ bheap w' (a_addr output)
     = fold_left (fun acc f => oper acc (f (bheap w0 (a_addr input)))) fs (bheap w (a_addr output)).
Proof.
  intros Hin Hnin Hout Hnout Hneq Hbuf. induction ops as [|op ops IH]; intros fs w w' HF X K E.
  - inversion HF; subst. cbn in E. injection E as <-. auto.
  - inversion HF as [|? f ? fs' [[Hm Hmu] Ht] HF']; subst. cbn [run_updates] in E.
    assert (Hi : bheap w (a_addr input) = bheap w0 (a_addr input)) by (apply K; auto).
    pose proof (ext_notin _ _ _ _ X Hin Hnin) as Hni. apply notin_app in Hni as [Hni1 Hni2].
    pose proof (ext_notin _ _ _ _ X Hout Hnout) as Hno. apply notin_app in Hno as [Hno1 Hno2].
    assert (Hio : old w (a_addr input)) by (eapply old_mono; [apply X|exact Hin]).
    assert (Hl : forall a, In a (addrs []) -> a = a_addr output) by (intros a []).
    destruct (p_update op) eqn:Eu.
    + destruct (p_exec op true input output w) as [w1|] eqn:Ee; cbn [rbind] in E; [|discriminate].
      destruct (op_step w0 [] w held false (a_addr output) (p_exec op true) (p_inplace op) oper f input output w1)
        as (X1 & K1 & _ & Hv); auto.
      destruct (IH fs' w1 w' HF' X1 K1 E) as (X2 & K2 & Hv2). split; [exact X2|]. split; [exact K2|].
      rewrite Hv2. cbn [fold_left]. rewrite Hv, Hi. reflexivity.
    + destruct buf as [b|]; [|discriminate].
      destruct (p_exec op false input b w) as [w1|] eqn:Ee; cbn [rbind] in E; [|discriminate].
      pose proof (Hbuf b eq_refl) as Hb.
      destruct (op_step w0 [] w held false (a_addr output) (p_exec op false) (p_inplace op) assign f input b w1)
        as (X1 & K1 & _ & Hv); auto.
      { left. intros Heq. apply Hni1. rewrite Heq. exact Hb. }
      { right. split; [exact Hb|]. intros Heq. apply Hno1. rewrite <- Heq. exact Hb. }
      set (w2 := write w1 (a_addr output) (oper (bheap w1 (a_addr output)) (bheap w1 (a_addr b)))) in *.
      assert (X2 : ext w0 [] w2 held).
      { eapply ext_op; [exact X1|exact (ext_world_ok _ _ _ _ X1)|]. split; [cbn; lia|]. exists []. rewrite app_nil_r. cbn. auto. }
      assert (K2 : kept false (a_addr output) w0 w2).
      { intros a Ha1 Ha2 Ha3. unfold w2. cbn. destruct (Z.eqb_spec a (a_addr output)) as [->|Hne]; [|apply K1; auto].
        destruct Ha3; [congruence|discriminate]. }
      destruct (IH fs' w2 w' HF' X2 K2 E) as (X3 & K3 & Hv3). split; [exact X3|]. split; [exact K3|].
      rewrite Hv3. cbn [fold_left]. f_equal. unfold w2. cbn [bheap write]. rewrite Z.eqb_refl, Hv. unfold assign. rewrite Hi. f_equal.
      assert (Hou : bheap w1 (a_addr output) = bheap w (a_addr output)); [|exact Hou].
      assert (Hbi : a_addr input <> a_addr b). { intros Heq. apply Hni1. rewrite Heq. exact Hb. }
      assert (Hrd : ready c malloc input b w).
      { split; [exact (ext_world_ok _ _ _ _ X)|]. pose proof (x_nodup _ _ _ _ X) as Hd. pose proof (x_old _ _ _ _ X) as Hx.
        unfold addrs in Hd, Hx. rewrite map_app in Hd, Hx. apply NoDup_app_iff in Hd as (_ & _ & Hd). apply Forall_app in Hx as [Hx _].
        rewrite Forall_forall in Hx. split; [exact Hio|]. split; [apply Hx; exact Hb|]. split; [exact Hni2|]. apply Hd. exact Hb. }
      destruct (Hm _ _ _ _ Ee Hrd (or_introl Hbi)) as (_ & _ & Hfr & _).
      apply Hfr; [eapply old_mono; [apply X|exact Hout]|exact Hno2|]. intros Heq. apply Hno1. rewrite Heq. exact Hb.
Qed.

(** With a commutative and associative operation the order of the operands does not matter. *)
Lemma fold_oper_perm (Hc : forall a b, oper a b = oper b a) (Ha : forall a b d, oper a (oper b d) = oper (oper a b) d)
  (fs fs' : list (V -> V)) (x : V) : Permutation fs fs' -> forall v,
  fold_left (fun acc f => oper acc (f x)) fs v = fold_left (fun acc f => oper acc (f x)) fs' v.
Proof.
  induction 1 as [|f l l' P IH|f g l|l1 l2 l3 P1 IH1 P2 IH2]; intros v; cbn; auto.
  - f_equal. rewrite <- !Ha. f_equal. apply Hc.
  - rewrite IH1. apply IH2.
Qed.

Lemma fold_oper_out (Hc : forall a b, oper a b = oper b a) (Ha : forall a b d, oper a (oper b d) = oper (oper a b) d)
  (fs : list (V -> V)) (x : V) : forall v u,
  fold_left (fun acc f => oper acc (f x)) fs (oper v u) = oper (fold_left (fun acc f => oper acc (f x)) fs v) u.
Proof.
  induction fs as [|f fs IH]; intros v u; cbn; [reflexivity|]. rewrite <- IH. f_equal. rewrite <- !Ha. f_equal. apply Hc.
Qed.

Lemma reduce_perm (Hc : forall a b, oper a b = oper b a) (Ha : forall a b d, oper a (oper b d) = oper (oper a b) d)
  fs fs' x : Permutation fs fs' -> reduce oper fs x = reduce oper fs' x.
Proof.
  induction 1 as [|f l l' P IH|f g l|l1 l2 l3 P1 IH1 P2 IH2]; cbn; auto.
  - apply fold_oper_perm; auto.
  - f_equal. apply Hc.
  - congruence.
Qed.

Lemma commutative_spec (Hc : forall a b, oper a b = oper b a) (Ha : forall a b d, oper a (oper b d) = oper (oper a b) d)
  ops fs : Forall2 sem ops fs -> behaves c malloc (commutative_direct c malloc oper ops) false assign (reduce oper fs).
Proof.
  intros HF input output w0 w' E (Hw0 & Hin & Hout & Hnin & Hnout) [Hneq|]; [|discriminate].
  unfold commutative_direct in E. destruct (Nat.leb (length ops) 1); [discriminate|].
  destruct (Forall2_perm _ _ _ (exchange_perm ops) _ HF) as (fs1 & HP & HF1).
  destruct (exchange ops) as [|op ops'] eqn:Ex; [discriminate|].
  inversion HF1 as [|? f ? fs' [[Hm _] _] HF']; subst.
  destruct (p_exec op false input output w0) as [w1|] eqn:Ee; cbn [rbind] in E; [|discriminate].
  assert (Hl : forall a, In a (addrs []) -> a = a_addr output) by (intros a []).
  destruct (op_step w0 [] w0 [] false (a_addr output) (p_exec op false) (p_inplace op) assign f input output w1)
    as (X1 & K1 & _ & Hv); auto.
  { apply ext_refl. exact Hw0. }
  { intros a _ _ _. reflexivity. }
  assert (Hfin : ext w0 [] w' [] /\ kept false (a_addr output) w0 w' /\ bheap w' (a_addr output)
     = fold_left (fun acc f => oper acc (f (bheap w0 (a_addr input)))) fs' (bheap w1 (a_addr output))).
  { destruct (Nat.ltb 1 _).
    - destruct (w_extract c malloc _ w1) as [b w2] eqn:Ew.
      destruct (ext_extract _ _ _ _ _ _ _ X1 Ew) as (X2 & Hh2 & _).
      destruct (view b _ _) as [v|] eqn:Ev; cbn [rbind] in E; [|discriminate].
      destruct (run_updates oper ops' input output (Some v) w2) as [w3|] eqn:Er; cbn [rbind] in E; [|discriminate].
      assert (K2 : kept false (a_addr output) w0 w2). { intros a ? ? ?. rewrite Hh2. apply K1; auto. }
      assert (Hbuf : forall v0, Some v = Some v0 -> In (a_addr v0) (addrs [flat b])).
      { intros v0 H; injection H as <-. rewrite (view_addr _ _ _ _ Ev), flat_addrs. left. reflexivity. }
      destruct (run_updates_spec input output w0 [flat b] (Some v) Hin Hnin Hout Hnout Hneq Hbuf ops' fs' w2 w3 HF' X2 K2 Er)
        as (X3 & K3 & Hv3).
      destruct (ext_give _ _ _ _ _ _ X3 E) as (X4 & Hh4 & _). split; [exact X4|]. split.
      + intros a ? ? ?. rewrite Hh4. apply K3; auto.
      + rewrite Hh4, Hv3, Hh2. reflexivity.
    - assert (Hbuf : forall v0 : arr, None = Some v0 -> In (a_addr v0) (addrs [])) by discriminate.
      exact (run_updates_spec input output w0 [] None Hin Hnin Hout Hnout Hneq Hbuf ops' fs' w1 w' HF' X1 K1 E). }
  destruct Hfin as (X & K & Hvf). destruct (ext_kept _ _ X) as [H1 H2]. split; [exact H1|]. split; [exact H2|]. split.
  - intros a ? ? ?. apply K; auto.
  - rewrite Hvf, Hv. unfold assign. rewrite <- (reduce_perm Hc Ha _ _ _ HP). reflexivity.
Qed.

(** ** Operator.__call__ *)
Lemma write_ext w0 lent w held a x : ext w0 lent w held -> ext w0 lent (write w a x) held.
Proof.
  intros X. eapply ext_op; [exact X|exact (ext_world_ok _ _ _ _ X)|]. split; [cbn; lia|]. exists []. rewrite app_nil_r. cbn. auto.
Qed.

Lemma held_ok w0 lent w held a : ext w0 lent w held -> In a (addrs held) -> old w a /\ ~ in_pool w a.
Proof.
  intros X Ha. pose proof (x_nodup _ _ _ _ X) as Hd. pose proof (x_old _ _ _ _ X) as Hx.
  unfold addrs in Hd, Hx. rewrite map_app in Hd, Hx. apply NoDup_app_iff in Hd as (_ & _ & Hd). apply Forall_app in Hx as [Hx _].
  rewrite Forall_forall in Hx. split; [apply Hx; exact Ha|apply Hd; exact Ha].
Qed.

Lemma user_ok w0 w held a : ext w0 [] w held -> old w0 a -> ~ in_pool w0 a -> old w a /\ ~ in_pool w a /\ ~ In a (addrs held).
Proof.
  intros X H1 H2. pose proof (ext_notin _ _ _ _ X H1 H2) as H. apply notin_app in H as [H3 H4].
  split; [eapply old_mono; [apply X|exact H1]|auto].
Qed.

(** What the input and the output of the computation may be. *)
Lemma call_spec cast op f dtype_ok item asg x out w0 w' :
  means c malloc oper op f -> ready c malloc x out w0 ->
  asg = true \/ (iscompatible c out {| r_shape := a_shape out; r_item := item; r_aligned := p_al_out op; r_contig := p_ct_out op |} None = true
                 /\ a_addr x <> a_addr out /\ p_inplace op = false) ->
  call c malloc cast op dtype_ok item asg x out w0 = Ok w' ->
  computed c malloc (value_op asg) (fun v => f (if dtype_ok then v else cast v)) x out w0 w'.
Proof.
  intros [Hm Hmu] (Hw0 & Hx & Ho & Hnx & Hno) Hasg E. unfold call in E.
  destruct (negb asg && negb (p_update op)) eqn:Eguard; [discriminate|].
  set (rin := {| r_shape := a_shape x; r_item := item; r_aligned := p_al_in op; r_contig := p_ct_in op |}) in *.
  set (rout := {| r_shape := a_shape out; r_item := item; r_aligned := p_al_out op; r_contig := p_ct_out op |}) in *.
  set (conv := fun v : V => if dtype_ok then v else cast v).
  match type of E with rbind ?r _ = _ => destruct r as [[[i i_] w1]|] eqn:Ei; cbn [rbind] in E; [|discriminate] end.
  (* the input *)
  assert (Hi : exists held1, ext w0 [] w1 held1 /\ bheap w1 (a_addr i) = conv (bheap w0 (a_addr x))
     /\ kept (negb asg) (a_addr out) w0 w1
     /\ ((i_ = None /\ held1 = [] /\ (a_addr i = a_addr x \/ (a_addr i = a_addr out /\ p_inplace op = true)))
         \/ exists b, i_ = Some b /\ held1 = [flat b] /\ a_addr i = a_addr b)).
  { destruct (negb dtype_ok || negb (iscompatible c x rin None)) eqn:Ec.
    - destruct (p_inplace op && iscompatible c out rin None) eqn:Ep.
      + apply andb_prop in Ep as [Ep _]. destruct (view out _ _) as [v|] eqn:Ev; cbn [rbind] in Ei; [|discriminate].
        injection Ei as <- <- <-. pose proof (view_addr _ _ _ _ Ev) as Hva.
        exists []. split; [apply write_ext, ext_refl; exact Hw0|]. split; [cbn; rewrite Z.eqb_refl; reflexivity|]. split.
        * intros a _ _ Ha. cbn. rewrite Hva. destruct (Z.eqb_spec a (a_addr out)) as [->|]; [|reflexivity].
          destruct Hasg as [->|(_ & _ & Hpi)]; [destruct Ha; [congruence|discriminate]|congruence].
        * left. auto.
      + destruct (w_extract c malloc rin w0) as [b w2] eqn:Ex.
        destruct (ext_extract _ _ _ _ _ _ _ (ext_refl _ Hw0) Ex) as (X2 & Hh2 & _).
        destruct (view b _ _) as [v|] eqn:Ev; cbn [rbind] in Ei; [|discriminate].
        injection Ei as <- <- <-. pose proof (view_addr _ _ _ _ Ev) as Hva.
        exists [flat b]. split; [apply write_ext; exact X2|]. split; [cbn; rewrite Z.eqb_refl, Hh2; reflexivity|]. split.
        * intros a Ha1 Ha2 _. cbn. rewrite Hva, Hh2. destruct (Z.eqb_spec a (a_addr b)) as [->|]; [|reflexivity].
          destruct (user_ok _ _ _ _ X2 Ha1 Ha2) as (_ & _ & H). exfalso. apply H. rewrite flat_addrs. left. reflexivity.
        * right. exists b. auto.
    - injection Ei as <- <- <-. exists []. split; [apply ext_refl; exact Hw0|]. split.
      + unfold conv. destruct dtype_ok; [reflexivity|discriminate].
      + split; [intros a _ _ _; reflexivity|]. left. auto. }
  destruct Hi as (held1 & X1 & Hv1 & K1 & Hi).
  match type of E with rbind ?r _ = _ => destruct r as [[[o o_] w2]|] eqn:Eo; cbn [rbind] in E; [|discriminate] end.
  (* the output *)
  assert (Hout : (o = out /\ o_ = None /\ w2 = w1 /\ (a_addr i <> a_addr out \/ p_inplace op = true))
     \/ (exists b, o_ = Some b /\ a_addr o = a_addr b /\ ext w0 [] w2 (flat b :: held1) /\ bheap w2 = bheap w1 /\ asg = true)).
  { destruct (negb (iscompatible c out rout None) || isalias i out && negb (p_inplace op)) eqn:Ec.
    - right. destruct (w_extract c malloc rout w1) as [b w3] eqn:Ex.
      destruct (ext_extract _ _ _ _ _ _ _ X1 Ex) as (X3 & Hh3 & _).
      destruct (view b _ _) as [v|] eqn:Ev; cbn [rbind] in Eo; [|discriminate]. injection Eo as <- <- <-.
      exists b. split; [reflexivity|]. split; [exact (view_addr _ _ _ _ Ev)|]. split; [exact X3|]. split; [exact Hh3|].
      destruct Hasg as [H|(H1 & H2 & H3)]; [exact H|]. exfalso. rewrite H1, H3 in Ec. cbn in Ec. rewrite andb_true_r in Ec.
      unfold isalias in Ec. apply Z.eqb_eq in Ec.
      destruct Hi as [(_ & _ & [H|(_ & H)])|(b' & _ & -> & H)]; [congruence|congruence|].
      destruct (user_ok _ _ _ _ X1 Ho Hno) as (_ & _ & H'). apply H'. rewrite flat_addrs. left. congruence.
    - left. injection Eo as <- <- <-. do 3 (split; [reflexivity|]). apply orb_false_iff in Ec as [_ Ec].
      destruct (p_inplace op); [auto|]. rewrite andb_true_r in Ec. left. unfold isalias in Ec. apply Z.eqb_neq in Ec. exact Ec. }
  (* the computation *)
  set (flag := p_update op && negb asg) in *.
  assert (Hb : behaves c malloc (p_exec op flag) (p_inplace op) (value_op asg) f).
  { unfold flag, value_op. destruct asg; [rewrite andb_false_r; exact Hm|]. destruct (p_update op); [|discriminate]. exact (Hmu eq_refl). }
  assert (Hin : forall w held, ext w0 [] w held -> (held = held1 \/ exists b, held = flat b :: held1) ->
            old w (a_addr i) /\ ~ in_pool w (a_addr i)).
  { intros w held X Hh. destruct Hi as [(_ & Hh1 & [-> | (-> & _)])|(b & _ & Hh1 & ->)].
    - destruct (user_ok _ _ _ _ X Hx Hnx) as (H1 & H2 & _). auto.
    - destruct (user_ok _ _ _ _ X Ho Hno) as (H1 & H2 & _). auto.
    - eapply held_ok; [exact X|]. subst held1. destruct Hh as [-> | (b' & ->)]; rewrite ?flat_addrs; cbn; rewrite ?flat_addr; auto. }
  destruct Hout as [(-> & -> & -> & Halias)|(b2 & -> & Hob & X2 & Hh2 & ->)].
  - (* the given array is the output *)
    unfold isalias in E. rewrite Z.eqb_refl, andb_false_r in E. cbn [rbind] in E.
    destruct (p_exec op flag i out w1) as [w3|] eqn:Ee; cbn [rbind] in E; [|discriminate].
    destruct (Hin _ _ X1 (or_introl eq_refl)) as [Hio Hinp].
    destruct (op_step w0 [] w1 held1 false (a_addr out) (p_exec op flag) (p_inplace op) (value_op asg) f i out w3)
      as (X3 & K3 & _ & Hv3); auto.
    { eapply kept_weaken; exact K1. }
    { intros a []. }
    assert (Hfin : ext w0 [] w' [] /\ bheap w' = bheap w3).
    { destruct Hi as [(-> & -> & _)|(b & -> & -> & _)]; cbn [rbind] in E.
      - injection E as <-. auto.
      - destruct (w_add b w3) as [w4|] eqn:Ea; cbn [rbind] in E; [|discriminate]. injection E as <-.
        destruct (ext_give _ _ _ _ _ _ X3 Ea) as (X4 & Hh4 & _). auto. }
    destruct Hfin as [X4 Hh4]. destruct (ext_kept _ _ X4) as [H1 H2]. split; [exact H1|]. split; [exact H2|]. split.
    + intros a ? ? ?. rewrite Hh4. apply K3; auto.
    + rewrite Hh4, Hv3, Hv1. unfold value_op. destruct asg; [reflexivity|]. f_equal. apply K1; auto.
  - (* a buffer is the output *)
    destruct (user_ok _ _ _ _ X2 Ho Hno) as (Hoo & Honp & Honh).
    assert (Hb2out : a_addr b2 <> a_addr out). { intros H. apply Honh. rewrite flat_addrs. left. exact H. }
    destruct (Hin _ _ X2 (or_intror (ex_intro _ b2 eq_refl))) as [Hio Hinp].
    assert (Hib2 : a_addr i <> a_addr b2).
    { intros Heq. destruct Hi as [(_ & -> & [H|(H & _)])|(b & _ & -> & H)].
      - destruct (user_ok _ _ _ _ X2 Hx Hnx) as (_ & _ & H'). apply H'. rewrite flat_addrs. left. congruence.
      - congruence.
      - pose proof (x_nodup _ _ _ _ X2) as Hd. cbn [app] in Hd. rewrite !flat_addrs in Hd. inversion Hd as [|? ? Hnb _]; subst.
        apply Hnb. left. congruence. }
    assert (Hal : isalias out o = false). { unfold isalias. apply Z.eqb_neq. congruence. }
    rewrite Hal in E. rewrite andb_true_r in E.
    set (reuse := negb (isalias out i)) in *.
    set (lent := if reuse then [flat out] else []).
    destruct (if reuse then w_add out w2 else Ok w2) as [w3|] eqn:Ea; cbn [rbind] in E; [|discriminate].
    assert (X3 : ext w0 lent w3 (flat b2 :: held1) /\ bheap w3 = bheap w2 /\ (bn w3 = bn w2)).
    { unfold lent. destruct reuse; [|injection Ea as <-; auto]. eapply ext_lend; eauto. apply notin_app. auto. }
    destruct X3 as (X3 & Hh3 & Hn3).
    destruct (p_exec op flag i o w3) as [w4|] eqn:Ee; cbn [rbind] in E; [|discriminate].
    assert (Hlent : forall a, In a (addrs lent) -> a = a_addr out).
    { unfold lent. destruct reuse; intros a; [rewrite flat_addrs; intros [<-|[]]; reflexivity|intros []]. }
    assert (K3 : kept false (a_addr out) w0 w3). { intros a ? ? ?. rewrite Hh3, Hh2. apply K1; auto. }
    destruct (op_step w0 lent w3 (flat b2 :: held1) false (a_addr out) (p_exec op flag) (p_inplace op) (value_op true) f i o w4)
      as (X4 & K4 & _ & Hv4); auto.
    { right. split; [exact Hb|]. split; [|auto]. unfold lent in *. destruct reuse eqn:Er; [|injection Ea as <-; exact Hinp].
      intros Hc. apply w_add_ok in Ea as (p & Ep & ->). cbn in Hc. apply add_ok in Ep as (Hp & _ & _).
      unfold in_pool in Hc. cbn in Hc. apply (Permutation_in _ (Permutation_map a_addr Hp)) in Hc.
      fold (addrs (flat out :: bpool w2)) in Hc. rewrite flat_addrs in Hc. destruct Hc as [Hc|Hc]; [|exact (Hinp Hc)].
      unfold reuse, isalias in Er. rewrite Hc, Z.eqb_refl in Er. discriminate. }
    { eapply old_mono; [|exact Hio]. lia. }
    { left. congruence. }
    { right. rewrite flat_addrs, Hob. split; [left; reflexivity|exact Hb2out]. }
    destruct (if reuse then w_remove out w4 else Ok w4) as [w5|] eqn:Er; cbn [rbind] in E; [|discriminate].
    assert (X5 : ext w0 [] w5 (flat b2 :: held1) /\ bheap w5 = bheap w4).
    { unfold lent in *. destruct reuse; [|injection Er as <-; auto]. destruct (ext_unlend _ _ _ _ _ Hw0 Ho Hno X4 Er) as (H1 & H2 & _). auto. }
    destruct X5 as [X5 Hh5].
    assert (Hgive : exists w6, ext w0 [] w6 [flat b2] /\ bheap w6 = bheap w5
       /\ w_add b2 (write w6 (a_addr out) (bheap w6 (a_addr o))) = Ok w').
    { destruct Hi as [(-> & -> & _)|(b & -> & -> & _)]; cbn [rbind] in E.
      - exists w5. auto.
      - destruct (w_add b w5) as [w6|] eqn:Eb; cbn [rbind] in E; [|discriminate].
        destruct (ext_give w0 [] w5 b [flat b2] w6) as (X6 & Hh6 & _); [|exact Eb|].
        { eapply ext_held_perm; [|exact X5]. apply perm_swap. }
        exists w6. auto. }
    destruct Hgive as (w6 & X6 & Hh6 & E6).
    destruct (ext_give _ _ _ _ _ _ (write_ext _ _ _ _ (a_addr out) (bheap w6 (a_addr o)) X6) E6) as (X7 & Hh7 & _).
    destruct (ext_kept _ _ X7) as [H1 H2]. split; [exact H1|]. split; [exact H2|]. split.
    + intros a Ha1 Ha2 Ha3. rewrite Hh7. cbn. destruct (Z.eqb_spec a (a_addr out)); [contradiction|]. rewrite Hh6, Hh5. apply K4; auto.
    + rewrite Hh7. cbn. rewrite Z.eqb_refl, Hh6, Hh5, Hv4, Hh3, Hh2, Hv1. reflexivity.
Qed.

(** ** No exception *)
Notation good := (reliable oper).

(** The result does not depend on the flag update_output: the flag is only given to operators that have it. *)
Definition allowed (p : operand V) (u : bool) : Prop := u = true -> p_update p = true.

Lemma good_run p u i o w : good p -> allowed p u ->
  exists w', p_exec p u i o w = Ok w' /\ bpool w' = bpool w /\ bn w' = bn w.
Proof.
  intros ((f & Hf & Hfu) & Ht & _) Hu. destruct (Ht u i o w) as (w' & E). exists w'. split; [exact E|].
  destruct u; [destruct (Hfu (Hu eq_refl) _ _ _ _ E) as (H1 & H2 & _)|destruct (Hf _ _ _ _ E) as (H1 & H2 & _)]; auto.
Qed.

Lemma ext_same w0 lent w held w1 : ext w0 lent w held -> bpool w1 = bpool w -> bn w1 = bn w -> ext w0 lent w1 held.
Proof.
  intros X Hp Hn. eapply ext_op; [exact X| |].
  - destruct (ext_world_ok _ _ _ _ X) as [H1 H2]. split; rewrite Hp; [exact H1|]. eapply Forall_impl; [|exact H2].
    intros a. apply old_mono. rewrite Hn. auto.
  - split; [rewrite Hn; auto|]. exists []. rewrite app_nil_r, Hp. auto.
Qed.

Lemma add_succeeds a (w : world V) : ~ in_pool w (a_addr a) -> exists w1, w_add a w = Ok w1.
Proof.
  intros H. unfold w_add, add. destruct (existsb _ _) eqn:E; [|eexists; reflexivity]. exfalso. apply H.
  apply existsb_exists in E as (b & Hb & E). rewrite flat_addr in E. apply Z.eqb_eq in E. unfold in_pool, addrs.
  rewrite <- E. apply in_map. exact Hb.
Qed.

Lemma remove_succeeds a (w : world V) : in_pool w (a_addr a) -> exists w1, w_remove a w = Ok w1.
Proof.
  intros H. unfold w_remove, remove. destruct (ifirst _ _) eqn:E; [eexists; reflexivity|]. exfalso.
  apply ifirst_none in E. rewrite Forall_forall in E. unfold in_pool, addrs in H. apply in_map_iff in H as (b & Hb & Hin).
  specialize (E b Hin). cbn in E. rewrite Hb, Z.eqb_refl in E. discriminate.
Qed.

Lemma view_succeeds b (p : operand V) : a_contig b = true -> p_size p <= nbytes b -> exists o, view b (p_shape p) (p_item p) = Ok o.
Proof.
  intros Hc Hs. unfold view. rewrite Hc. destruct (Z.leb_spec (p_item p * zprod (p_shape p)) (nbytes b)); [eexists; reflexivity|].
  unfold p_size in Hs. rewrite Z.mul_comm in Hs. lia.
Qed.

Lemma run_inplace_ok o_ : a_contig o_ = true -> forall l ops i w, Forall good l -> Forall (fun p => p_size p <= nbytes o_) l ->
  exists i' w', run_inplace (length l) (l ++ ops) i o_ w = Ok (i', ops, w') /\ bpool w' = bpool w /\ bn w' = bn w.
Proof.
  intros Hc. induction l as [|p l IH]; intros ops i w Hg Hs; [cbn; eauto|].
  apply Forall_cons_iff in Hg as [Hp Hg]. apply Forall_cons_iff in Hs as [Hs1 Hs]. cbn [length app run_inplace].
  destruct (view_succeeds o_ p Hc Hs1) as (o & ->). cbn [rbind].
  destruct (good_run p false i o w Hp) as (w1 & -> & H1 & H2); [discriminate|]. cbn [rbind].
  destruct (IH ops o w1 Hg Hs) as (i' & w' & E & H3 & H4). exists i', w'. split; [exact E|]. split; congruence.
Qed.

(** As [fits], with the sizes. *)
Fixpoint fitb (gs : list (group * Z)) (ops : list (operand V)) : Prop :=
  match gs with
  | [] => ops = []
  | (g, b) :: gs' => exists op l ops', ops = op :: l ++ ops' /\ length l = g_n g
                     /\ Forall (fun p => p_size p <= b) (op :: l) /\ fitb gs' ops'
  end.

Definition fitb_all (gs : list (group * Z)) (ops : list (operand V)) : Prop :=
  exists g b gs' l ops', gs = (g, b) :: gs' /\ ops = l ++ ops' /\ length l = g_n g /\ fitb gs' ops'.

Lemma fitb_app gs g b : forall ops op l, fitb gs ops -> length l = g_n g -> Forall (fun p => p_size p <= b) (op :: l) ->
  fitb (gs ++ [(g, b)]) (ops ++ op :: l).
Proof.
  induction gs as [|[g1 b1] gs IH]; intros ops op l Hf Hl Hs; cbn in *.
  - subst ops. exists op, l, []. rewrite app_nil_r. auto.
  - destruct Hf as (op1 & l1 & ops1 & -> & H1 & H2 & H3). exists op1, l1, (ops1 ++ op :: l).
    split; [cbn; rewrite <- app_assoc; reflexivity|]. auto.
Qed.

Lemma fits_last gs g : forall ops, fits (gs ++ [g]) ops -> exists ops1 op l, ops = ops1 ++ op :: l /\ fits gs ops1 /\ length l = g_n g.
Proof.
  induction gs as [|g1 gs IH]; intros ops; cbn.
  - intros (op & l & ops' & -> & Hl & _ & ->). exists [], op, l. rewrite app_nil_r. auto.
  - intros (op & l & ops' & -> & Hl & Hi & Hf). destruct (IH _ Hf) as (ops1 & op1 & l1 & -> & H1 & H2).
    exists (op :: l ++ ops1), op1, l1. split; [cbn; rewrite <- app_assoc; reflexivity|]. split; [|exact H2].
    exists op, l, ops1. auto.
Qed.

Lemma zmax_ge l x : In x l -> x <= zmax l.
Proof. unfold zmax. induction l as [|y l IH]; cbn [In fold_right]; [intros []|]. intros [->|H]; [lia|]. specialize (IH H). lia. Qed.

Lemma bufsizes_fit gs : forall ops lst, fits_all (rev gs) (rev ops) -> fitb_all (rev (get_bufsizes (map p_size ops) lst gs)) (rev ops).
Proof.
  induction gs as [|g gs IH]; intros ops lst (g0 & gs0 & l & ops' & Hr & Hops & Hl & Hi & Hf); [discriminate|].
  destruct gs as [|g1 gs].
  - cbn in Hr. injection Hr as <- <-. cbn in Hf. subst ops'. cbn. exists g, lst, [], l, []. do 3 (split; [auto|]). reflexivity.
  - change (get_bufsizes (map p_size ops) lst (g :: g1 :: gs)) with
      ((g, zmax (firstn (S (g_n g)) (map p_size ops))) :: get_bufsizes (skipn (S (g_n g)) (map p_size ops)) lst (g1 :: gs)).
    cbn [rev]. cbn [rev] in Hr. destruct (rev gs ++ [g1]) as [|g2 r] eqn:Er; [destruct (rev gs); discriminate|].
    cbn in Hr. injection Hr as <- <-.
    destruct (fits_last _ _ _ Hf) as (ops1 & op & l1 & -> & Hf1 & Hl1).
    assert (Hall : fits_all (rev (g1 :: gs)) (l ++ ops1)).
    { cbn [rev]. rewrite Er. exists g2, r, l, ops1. auto. }
    rewrite app_assoc in Hops. rewrite <- (rev_involutive (l ++ ops1)) in Hall, Hops.
    set (opsr := rev (l ++ ops1)) in *.
    assert (Ho : ops = rev (op :: l1) ++ opsr).
    { apply (f_equal (@rev _)) in Hops. rewrite rev_involutive, rev_app_distr, rev_involutive in Hops. exact Hops. }
    assert (Hlen : length (map p_size (rev (op :: l1))) = S (g_n g)).
    { rewrite map_length, rev_length. cbn. rewrite Hl1. reflexivity. }
    rewrite Ho, map_app, skipn_app, firstn_app, <- Hlen, Nat.sub_diag, skipn_all, firstn_all. cbn [firstn skipn app]. rewrite app_nil_r.
    destruct (IH opsr lst Hall) as (g3 & b3 & gs3 & l3 & ops3 & H1 & H2 & H3 & H4).
    rewrite H1. cbn [app]. exists g3, b3, (gs3 ++ [(g, zmax (map p_size (rev (op :: l1))))]), l3, (ops3 ++ op :: l1).
    split; [reflexivity|]. split.
    { rewrite rev_app_distr, rev_involutive, H2, <- app_assoc. reflexivity. }
    split; [exact H3|]. apply fitb_app; [exact H4|exact Hl1|].
    apply Forall_forall. intros p Hp. apply zmax_ge. apply in_map. apply -> in_rev. exact Hp.
Qed.

Section GroupsOk.
Variables (input output : arr) (w0 : world V) (asg update : bool) (N : nat).
Notation inp := (a_addr input).
Notation out := (a_addr output).
Hypothesis (Hw0 : world_ok w0) (Hin : old w0 inp) (Hnin : ~ in_pool w0 inp) (Hout : old w0 out) (Hnout : ~ in_pool w0 out).
Hypothesis Hcout : a_contig output = true.

Lemma give_back_ok ngs i_ held lent w rest :
  where_ input output asg N (S ngs) i_ held -> ext w0 lent w (held ++ rest) -> (forall a, In a (addrs held) -> a <> out) ->
  contigs (held ++ rest ++ bpool w) ->
  exists w1, (if (Nat.ltb ngs (N - 2) || negb (negb (isalias input output))) && negb (isalias i_ output)
     then w_add i_ w else Ok w) = Ok w1 /\ ext w0 lent w1 rest /\ contigs (rest ++ bpool w1).
Proof.
  intros Hh X Hno Hc.
  assert (H : exists w1, (if (Nat.ltb ngs (N - 2) || negb (negb (isalias input output))) && negb (isalias i_ output)
     then w_add i_ w else Ok w) = Ok w1 /\ (exists l, Permutation (bpool w1) (l ++ bpool w) /\ (l = [] \/ l = held))).
  { unfold isalias. rewrite negb_involutive. destruct Hh as [(HN & -> & Hi)|[HN [(-> & Hi & _)| ->]]].
    - rewrite Hi. replace (Nat.ltb ngs (N - 2)) with false by (symmetry; apply Nat.ltb_ge; clear - HN; lia).
      destruct (inp =? out); cbn; eexists; (split; [reflexivity|]); exists []; auto.
    - rewrite Hi, Z.eqb_refl, andb_false_r. eexists; (split; [reflexivity|]); exists []; auto.
    - destruct (_ && _); [|eexists; (split; [reflexivity|]); exists []; auto].
      assert (Hn : ~ in_pool w (a_addr i_)).
      { eapply held_ok; [exact X|]. cbn. rewrite flat_addr. left. reflexivity. }
      destruct (add_succeeds _ _ Hn) as (w1 & E). exists w1. split; [exact E|]. exists [flat i_]. split; [|auto].
      apply w_add_ok in E as (p & Ep & ->). apply add_ok in Ep as (Hp & _ & _). exact Hp. }
  destruct H as (w1 & E & l & Hp & Hl). exists w1. split; [exact E|].
  destruct (give_back input output w0 asg N ngs i_ held lent w w1 rest Hh X Hno E) as [X1 _]. split; [exact X1|].
  unfold contigs in *. apply Forall_app in Hc as [Hc1 Hc2]. apply Forall_app in Hc2 as [Hc2 Hc3].
  apply Forall_app. split; [exact Hc2|]. eapply Permutation_Forall; [symmetry; exact Hp|]. apply Forall_app. split; [|exact Hc3].
  destruct Hl as [-> | ->]; [constructor|exact Hc1].
Qed.

Lemma flat_contigs b l : contigs (flat b :: l) <-> a_contig b = true /\ contigs l.
Proof. unfold contigs. rewrite Forall_cons_iff, flat_contig. reflexivity. Qed.

Lemma extract_contig r (w : world V) b w1 : contigs (bpool w) -> w_extract c malloc r w = (b, w1) ->
  a_contig b = true /\ r_nbytes r <= nbytes b /\ contigs (bpool w1).
Proof.
  intros Hc E. unfold w_extract in E.
  destruct (extract_cases c r (malloc (bn w)) (bpool w)) as [(k & v & _ & Hk & Hcomp & Ee)|[_ Ee]]; rewrite Ee in E;
    injection E as <- <-; cbn [bpool].
  - pose proof (nth_pop_perm _ _ _ Hk) as Hp. unfold contigs in *.
    apply (Permutation_Forall Hp) in Hc. apply Forall_cons_iff in Hc as [Hv Hc]. split; [exact Hv|]. split; [|exact Hc].
    apply iscompatible_facts in Hcomp as (_ & _ & H). rewrite Hv in H. destruct H as (_ & H & _). exact H.
  - split; [apply empty_contig|]. split; [|exact Hc]. clear. unfold nbytes, r_nbytes, empty.
    destruct (_ =? 0); cbn [a_shape a_item]; lia.
Qed.

Lemma bytes_req_nbytes n al ct : r_nbytes (bytes_req n al ct) = n.
Proof. unfold r_nbytes, bytes_req, zprod. cbn [r_shape r_item fold_right]. lia. Qed.

Lemma run_groups_ok : forall gs ops i i_ w held,
  Forall good ops -> fitb gs ops -> ext w0 [] w held -> contigs (held ++ bpool w) ->
  where_ input output asg N (length gs) i_ held -> last (map snd gs) 0 <= nbytes output ->
  (update = true -> forall l op, ops = l ++ [op] -> p_update op = true) ->
  exists w', run_groups c malloc input output (negb (isalias input output)) asg update N gs i i_ ops w = Ok w'.
Proof.
  induction gs as [|[g bufsize] gs IH]; intros ops i i_ w held Hg Hfit X Hc Hwh Hsz Hup; [cbn; eauto|].
  cbn [fitb] in Hfit. destruct Hfit as (op & l & ops' & -> & Hl & Hs & Hfit).
  apply Forall_cons_iff in Hg as [Hgop Hg]. apply Forall_app in Hg as [Hgl Hg]. apply Forall_cons_iff in Hs as [Hsop Hs].
  cbn [run_groups]. unfold run_group at 1. rewrite <- Hl.
  set (reuse := (asg && Nat.even (length gs) && iscompatible c output (bytes_req bufsize (g_al g) (g_ct g)) None
                 && negb (isalias output i)) || Nat.eqb (length gs) 0) in *.
  assert (Hreuse : reuse = true -> bufsize <= nbytes output /\ (gs <> [] -> asg = true /\ Nat.even (length gs) = true)).
  { unfold reuse. destruct (Nat.eqb_spec (length gs) 0) as [Hz|Hz].
    - intros _. destruct gs; [|discriminate]. split; [exact Hsz|congruence].
    - rewrite orb_false_r. intros H. apply andb_prop in H as [H _]. apply andb_prop in H as [H H3]. apply andb_prop in H as [H1 H2].
      split; [|auto]. apply iscompatible_facts in H3 as (_ & _ & H3). rewrite Hcout in H3. destruct H3 as (_ & H3 & _).
      revert H3. clear. unfold r_nbytes, bytes_req, zprod. cbn [r_shape r_item fold_right]. lia. }
  assert (Hnreuse : reuse = false -> gs <> []).
  { unfold reuse. intros H ->. cbn in H. rewrite orb_true_r in H. discriminate. }
  assert (Hheldout : forall a, In a (addrs held) -> a <> out).
  { intros a Ha ->. pose proof (ext_notin _ _ _ _ X Hout Hnout) as H. apply notin_app in H as [H _]. exact (H Ha). }
  set (flag := match l ++ ops' with [] => update && negb asg | _ => false end).
  assert (Hflag : allowed op flag).
  { unfold flag, allowed. destruct (l ++ ops') eqn:El; [|discriminate]. intros H. apply andb_prop in H as [H _].
    apply (Hup H [] op). reflexivity. }
  assert (Hup' : update = true -> forall l0 op0, ops' = l0 ++ [op0] -> p_update op0 = true).
  { intros Hu l0 op0 ->. apply (Hup Hu (op :: l ++ l0) op0). cbn. rewrite <- app_assoc. reflexivity. }
  assert (HNw : (S (length gs) < N)%nat).
  { destruct Hwh as [(HN & _)|[HN _]]; cbn [length] in HN; clear - HN; lia. }
  destruct reuse eqn:Er.
  - destruct (Hreuse eq_refl) as [Hb Hasg]. clear Hreuse Hnreuse. cbn [rbind].
    destruct (view_succeeds output op Hcout (Z.le_trans _ _ _ Hsop Hb)) as (o & ->). cbn [rbind].
    destruct (good_run op flag i o w Hgop Hflag) as (w1 & -> & Hp1 & Hn1). cbn [rbind].
    assert (X1 : ext w0 [] w1 (held ++ [])) by (rewrite app_nil_r; eapply ext_same; eauto).
    assert (Hc1 : contigs (held ++ [] ++ bpool w1)) by (rewrite Hp1; exact Hc).
    destruct (give_back_ok (length gs) _ _ _ _ _ Hwh X1 Hheldout Hc1) as (w2 & -> & X2 & Hc2). cbn [rbind].
    destruct (run_inplace_ok output Hcout l ops' o w2 Hgl) as (i' & w3 & -> & Hp3 & Hn3).
    { eapply Forall_impl; [|exact Hs]. cbn. clear - Hb. intros; lia. }
    cbn [rbind]. destruct gs as [|g1 gs]; [cbn; eauto|]. destruct Hasg as [Ha1 Ha2]; [discriminate|].
    apply (IH ops' i' output w3 []); auto.
    + eapply ext_same; eauto.
    + cbn [app] in *. rewrite Hp3. exact Hc2.
    + right. split; [exact HNw|]. left. auto.
  - specialize (Hnreuse eq_refl). clear Hreuse.
    destruct (w_extract c malloc (bytes_req bufsize (g_al g) (g_ct g)) w) as [b w1] eqn:Ex.
    destruct (ext_extract _ _ _ _ _ _ _ X Ex) as (X1 & _ & _).
    assert (Hcw : contigs (bpool w)) by (apply Forall_app in Hc as [_ Hc']; exact Hc').
    assert (Hch : contigs held) by (apply Forall_app in Hc as [Hc' _]; exact Hc').
    destruct (extract_contig _ _ _ _ Hcw Ex) as (Hcb & Hbb & Hc1). rewrite bytes_req_nbytes in Hbb.
    destruct (user_ok _ _ _ _ X1 Hout Hnout) as (Hoo & Honp & Honh).
    destruct (add_succeeds output w1 Honp) as (w2 & Ea). rewrite Ea. cbn [rbind].
    destruct (ext_lend _ _ _ _ _ X1 Hoo (ext_notin _ _ _ _ X1 Hout Hnout) Ea) as (X2 & _ & _).
    assert (Hc2 : contigs (bpool w2)).
    { apply w_add_ok in Ea as (p & Ep & ->). apply add_ok in Ep as (Hp & _ & _). cbn.
      eapply Permutation_Forall; [symmetry; exact Hp|]. apply flat_contigs. auto. }
    destruct (view_succeeds b op Hcb (Z.le_trans _ _ _ Hsop Hbb)) as (o & ->). cbn [rbind].
    destruct (good_run op flag i o w2 Hgop Hflag) as (w3 & -> & Hp3 & Hn3). cbn [rbind].
    assert (X3 : ext w0 [flat output] w3 (held ++ [flat b])).
    { eapply ext_same; [|exact Hp3|exact Hn3]. eapply ext_held_perm; [|exact X2]. apply Permutation_cons_append. }
    assert (Hc3 : contigs (held ++ [flat b] ++ bpool w3)).
    { apply Forall_app. split; [exact Hch|]. cbn [app]. apply flat_contigs. rewrite Hp3. auto. }
    destruct (give_back_ok (length gs) _ _ _ _ _ Hwh X3 Hheldout Hc3) as (w4 & -> & X4 & Hc4). cbn [rbind].
    destruct (run_inplace_ok b Hcb l ops' o w4 Hgl) as (i' & w5 & -> & Hp5 & Hn5).
    { eapply Forall_impl; [|exact Hs]. cbn. clear - Hbb. intros; lia. }
    cbn [rbind].
    assert (X5 : ext w0 [flat output] w5 [flat b]) by (eapply ext_same; eauto).
    assert (Hin5 : in_pool w5 out).
    { destruct (x_perm _ _ _ _ X5) as (news & Hp & _).
      assert (H : In (flat output) ([flat b] ++ bpool w5)).
      { eapply Permutation_in; [symmetry; exact Hp|]. apply in_app_iff. right. left. reflexivity. }
      cbn in H. destruct H as [H|H].
      - exfalso. apply Honh. rewrite flat_addrs. left. rewrite <- (flat_addr b), <- (flat_addr output). congruence.
      - unfold in_pool, addrs. rewrite <- (flat_addr output). apply in_map. exact H. }
    destruct (remove_succeeds output w5 Hin5) as (w6 & Er6). rewrite Er6. cbn [rbind].
    destruct (ext_unlend _ _ _ _ _ Hw0 Hout Hnout X5 Er6) as (X6 & _ & _).
    apply (IH ops' i' b w6 [flat b]); auto.
    + cbn [app] in *. apply flat_contigs. split; [exact Hcb|].
      apply w_remove_ok in Er6 as (p & Ep & ->). apply remove_ok in Ep as (b0 & _ & _ & Hp & _). cbn.
      rewrite Hp5 in Hp. apply flat_contigs in Hc4 as [_ Hc4]. apply (Permutation_Forall Hp) in Hc4.
      apply Forall_cons_iff in Hc4 as [_ Hc4]. exact Hc4.
    + right. split; [exact HNw|]. right. reflexivity.
    + destruct gs; [contradiction|exact Hsz].
Qed.
End GroupsOk.

(** The assertions of _get_info hold. *)
Lemma requirements_inplace_first (op : operand V) r al ct n : p_inplace op = true ->
  exists m a k gs, requirements (op :: r) n al ct = G (S m) a k :: gs /\ (r = [] -> m = n) /\ (n <= m)%nat
    /\ ((exists op', In op' r /\ p_inplace op' = false) \/ (m = n + length r)%nat).
Proof.
  intros Ep. cbn [requirements]. rewrite Ep. generalize (al || p_al_in op), (ct || p_ct_in op). clear Ep op al ct. intros al ct.
  assert (H : forall (r : list (operand V)) n al ct, exists m a k gs, requirements r (S n) al ct = G (S m) a k :: gs /\ (r = [] -> m = n) /\ (n <= m)%nat
    /\ ((exists op', In op' r /\ p_inplace op' = false) \/ (m = n + length r)%nat)); [|apply H].
  clear r n al ct. induction r as [|op r IH]; intros n al ct; cbn.
  - exists n, al, ct, []. repeat split; auto.
  - destruct (p_inplace op) eqn:Ep.
    + destruct (IH (S n) (al || p_al_in op) (ct || p_ct_in op)) as (m & a & k & gs & H1 & _ & H3 & H4).
      exists m, a, k, gs. split; [exact H1|]. split; [discriminate|]. split; [lia|].
      destruct H4 as [(op' & H4 & H5)|H4]; [left; exists op'; auto|right; lia].
    + exists n, (al || p_al_in op), (ct || p_ct_in op), (requirements r 0 (p_al_out op) (p_ct_out op)).
      split; [reflexivity|]. split; [discriminate|]. split; [lia|]. left. exists op. auto.
Qed.

Lemma requirements_inplace_last (ops : list (operand V)) op : p_inplace op = true -> forall n al ct,
  exists gs m a k, requirements (ops ++ [op]) n al ct = gs ++ [G (S m) a k] /\ (gs = [] -> m = n + length ops)%nat.
Proof.
  intros Ep. induction ops as [|p ops IH]; intros n al ct; cbn.
  - rewrite Ep. exists [], n, (al || p_al_in op), (ct || p_ct_in op). split; [reflexivity|]. lia.
  - destruct (p_inplace p).
    + destruct (IH (S n) (al || p_al_in p) (ct || p_ct_in p)) as (gs & m & a & k & H1 & H2). exists gs, m, a, k.
      split; [exact H1|]. intros H. specialize (H2 H). lia.
    + destruct (IH 0%nat (p_al_out p) (p_ct_out p)) as (gs & m & a & k & H1 & H2).
      exists (G n (al || p_al_in p) (ct || p_ct_in p) :: gs), m, a, k. rewrite H1. split; [reflexivity|discriminate].
Qed.

Lemma requirements_last' (ops : list (operand V)) op : p_inplace op = false -> forall n al ct,
  exists gs, requirements (ops ++ [op]) n al ct = gs ++ [G 0 (p_al_out op) (p_ct_out op)] /\ gs <> [].
Proof.
  intros Ep. induction ops as [|p ops IH]; intros n al ct; cbn.
  - rewrite Ep. eexists [_]. split; [reflexivity|discriminate].
  - destruct (p_inplace p); [apply IH|].
    destruct (IH 0%nat (p_al_out p) (p_ct_out p)) as (gs & -> & _). exists (G n (al || p_al_in p) (ct || p_ct_in p) :: gs).
    split; [reflexivity|discriminate].
Qed.

Lemma get_groups_ok (op0 : operand V) ops opn i o : (exists l, op0 :: ops = l ++ [opn] /\ l <> []) -> 0 <= p_size op0 ->
  (p_al_in opn = true -> aligned_at c i = true) -> (p_ct_in opn = true -> a_contig i = true) ->
  (p_al_out op0 = true -> aligned_at c o = true) -> (p_ct_out op0 = true -> a_contig o = true) ->
  exists gs, get_groups c (op0 :: ops) i o true = Ok gs
    /\ zmax (firstn (S (g_n (first_group gs))) (map p_size (op0 :: ops))) <= p_size op0.
Proof.
  intros (l & Hops & Hl) Hsz Hai Hci Hao Hco. unfold get_groups.
  assert (Hrev : rev (op0 :: ops) = opn :: rev l).
  { rewrite Hops, rev_app_distr. reflexivity. }
  set (gs0 := rev (requirements (rev (op0 :: ops)) 0 false false)).
  assert (H1 : exists gs1, (if need_split_last c (op0 :: ops) gs0 i true then split_last gs0 (aligned_at c i) (a_contig i) else Ok gs0) = Ok gs1
     /\ (if p_inplace op0 then exists m, g_n (first_group gs1) = S m
         else first_group gs1 = G 0 (p_al_out op0) (p_ct_out op0))).
  { assert (Hfst : if p_inplace op0 then exists m gs, gs0 = m :: gs /\ (g_n m <> 0)%nat /\ (gs = [] -> g_n m = length (op0 :: ops))
            else exists gs, gs0 = G 0 (p_al_out op0) (p_ct_out op0) :: gs /\ gs <> []).
    { unfold gs0. cbn [rev]. destruct (p_inplace op0) eqn:Ep0.
      - destruct (requirements_inplace_last (rev ops) op0 Ep0 0 false false) as (gs & m & a & k & -> & H).
        rewrite rev_app_distr. cbn. exists (G (S m) a k), (rev gs). split; [reflexivity|]. split; [cbn; lia|].
        intros Hg. cbn. apply (f_equal (@rev _)) in Hg. rewrite rev_involutive in Hg. rewrite (H Hg), rev_length. reflexivity.
      - destruct (requirements_last' (rev ops) op0 Ep0 0 false false) as (gs & -> & Hg). rewrite rev_app_distr. cbn.
        exists (rev gs). split; [reflexivity|]. intros H. apply Hg. apply (f_equal (@rev _)) in H. rewrite rev_involutive in H. exact H. }
    unfold need_split_last. rewrite Hrev. destruct (p_inplace opn) eqn:Epn; cbn [andb orb].
    - unfold split_last.
      assert (Hg0 : exists m a k gs, rev gs0 = G (S m) a k :: gs /\ gs0 = rev gs ++ [G (S m) a k]).
      { unfold gs0. rewrite rev_involutive, Hrev.
        destruct (requirements_inplace_first opn (rev l) false false 0 Epn) as (m & a & k & gs & -> & _).
        exists m, a, k, gs. auto. }
      destruct Hg0 as (m & a & k & gs & Hg0 & Hg0'). rewrite Hg0. eexists. split; [reflexivity|].
      rewrite Hg0' in Hfst. destruct (rev gs) as [|g' gs']; cbn [app first_group hd] in *.
      + destruct (p_inplace op0).
        * destruct Hfst as (m' & gs'' & Heq & _ & Hlen). injection Heq as <- <-. specialize (Hlen eq_refl). cbn in Hlen.
          assert (Hlen' : length (op0 :: ops) = S (length l)) by (rewrite Hops, app_length; cbn; lia).
          cbn in Hlen'. destruct l as [|x l]; [contradiction|]. cbn in Hlen'. exists (length l). cbn. clear - Hlen Hlen'. lia.
        * destruct Hfst as (gs'' & Heq & _). discriminate.
      + destruct (p_inplace op0).
        * destruct Hfst as (m' & gs'' & Heq & Hn & _). injection Heq as <- _. cbn. destruct (g_n g') as [|m'']; [lia|eauto].
        * destruct Hfst as (gs'' & Heq & _). injection Heq as -> _. reflexivity.
    - assert (Hg0 : exists gs, gs0 = gs ++ [G 0 (p_al_in opn) (p_ct_in opn)]).
      { unfold gs0. rewrite Hrev. cbn. rewrite Epn. cbn. eauto. }
      destruct Hg0 as (gs & Hg0). replace (last_group gs0) with (G 0 (p_al_in opn) (p_ct_in opn))
        by (rewrite Hg0; unfold last_group; rewrite last_last; reflexivity).
      cbn [g_al g_ct].
      replace (negb (aligned_at c i) && p_al_in opn) with false by (destruct (p_al_in opn); [rewrite Hai by reflexivity|rewrite andb_false_r]; reflexivity).
      replace (negb (a_contig i) && p_ct_in opn) with false by (destruct (p_ct_in opn); [rewrite Hci by reflexivity|rewrite andb_false_r]; reflexivity).
      cbn. exists gs0. split; [reflexivity|]. destruct (p_inplace op0).
      + destruct Hfst as (m & gs1 & -> & Hn & _). cbn. destruct (g_n m); [lia|eauto].
      + destruct Hfst as (gs1 & -> & _). reflexivity. }
  destruct H1 as (gs1 & E1 & Hf). fold gs0. rewrite E1. cbn [rbind].
  assert (Hz : zmax [p_size op0] <= p_size op0) by (unfold zmax; cbn; lia).
  destruct (need_split_first c (op0 :: ops) gs1 o) eqn:En.
  - destruct (p_inplace op0).
    + destruct Hf as (m & Hm). unfold split_first. destruct gs1 as [|[[|n] a k] gs1]; cbn in Hm; try discriminate.
      eexists. split; [reflexivity|]. cbn [first_group hd g_n firstn map]. exact Hz.
    + exfalso. unfold need_split_first in En. rewrite Hf in En. cbn [g_n g_al g_ct hd map firstn] in En.
      apply orb_prop in En as [En|En]; [apply orb_prop in En as [En|En]|].
      * unfold zmax in *. cbn in *. lia.
      * apply andb_prop in En as [En1 En2]. rewrite Hao in En1 by exact En2. discriminate.
      * apply andb_prop in En as [En1 En2]. rewrite Hco in En1 by exact En2. discriminate.
  - exists gs1. split; [reflexivity|]. unfold need_split_first in En. apply orb_false_iff in En as [En _]. apply orb_false_iff in En as [En _].
    apply Z.ltb_ge in En. exact En.
Qed.

Lemma get_bufsizes_first gs sizes lst : (2 <= length gs)%nat ->
  hd 0 (map snd (get_bufsizes sizes lst gs)) = zmax (firstn (S (g_n (first_group gs))) sizes).
Proof. destruct gs as [|g [|g' gs]]; cbn [length]; try lia. reflexivity. Qed.

Lemma composition_ok op0 ops opn asg input output w0 :
  (exists l, op0 :: ops = l ++ [opn] /\ l <> []) -> Forall good (op0 :: ops) ->
  ready c malloc input output w0 -> a_addr input <> a_addr output ->
  contigs (bpool w0) -> a_contig output = true -> nbytes output = p_size op0 ->
  (p_al_in opn = true -> aligned_at c input = true) -> (p_ct_in opn = true -> a_contig input = true) ->
  (p_al_out op0 = true -> aligned_at c output = true) ->
  exists w', composition_direct c malloc (op0 :: ops) asg input output w0 = Ok w'.
Proof.
  intros Hl Hg (Hw0 & Hin & Hout & Hnin & Hnout) Hneq Hc Hco Hsz Hai Hci Hao.
  assert (Hs0 : 0 <= p_size op0) by (apply Forall_cons_iff in Hg as [(_ & _ & H) _]; exact H).
  destruct (get_groups_ok op0 ops opn input output Hl Hs0 Hai Hci Hao (fun _ => Hco)) as (gs & Eg & Hz).
  unfold composition_direct.
  assert (Hal : isalias input output = false) by (unfold isalias; apply Z.eqb_neq; exact Hneq).
  rewrite Hal. cbn [negb]. rewrite Eg. cbn [rbind].
  set (ops1 := op0 :: ops) in *.
  pose proof (get_groups_fits _ _ _ _ _ Eg) as Hfit. assert (Hne : ops1 <> []) by discriminate. pose proof (get_groups_input _ _ _ _ Hne Eg) as (al & ct & g1 & gs1 & Hr).
  destruct (bufsizes_fit gs ops1 (last (map p_size ops1) 0) Hfit) as (g & b & gs' & l & ops' & Hb & Hops & Hlen & Hfb).
  rewrite Hb.
  assert (Hm : map fst ((g, b) :: gs') = rev gs). { rewrite <- Hb, map_rev, get_bufsizes_fst. reflexivity. }
  rewrite Hr in Hm. cbn in Hm. injection Hm as -> Hm. cbn [g_n run_inplace rbind].
  cbn in Hlen. destruct l; [|discriminate]. cbn [app] in Hops. rewrite Hops.
  assert (HN : length gs = S (length gs')). { rewrite <- (rev_length gs), Hr. apply (f_equal (@length _)) in Hm. rewrite map_length in Hm. cbn in *. rewrite Hm. reflexivity. }
  assert (Hgne : gs' <> []). { intros ->. discriminate. }
  replace true with (negb (isalias input output)) by (rewrite Hal; reflexivity).
  apply run_groups_ok with (w0 := w0) (held := []); auto.
  - rewrite <- Hops. apply Forall_rev. exact Hg.
  - apply ext_refl. exact Hw0.
  - left. split; [symmetry; exact HN|]. auto.
  - assert (Hlast : last (map snd gs') 0 = hd 0 (map snd (get_bufsizes (map p_size ops1) (last (map p_size ops1) 0) gs))).
    { apply (f_equal (map snd)) in Hb. rewrite map_rev in Hb. cbn in Hb. eapply rev_cons_hd; [exact Hb|].
      destruct gs'; [contradiction|discriminate]. }
    rewrite Hlast, get_bufsizes_first, Hsz; [exact Hz|]. rewrite HN. destruct gs'; [contradiction|cbn; clear; lia].
  - intros Hu l op Hop. rewrite <- Hops in Hop. unfold ops1 in *. cbn [rev] in Hop. apply app_inj_tail in Hop as [_ <-]. exact Hu.
Qed.

Lemma run_updates_ok ops : forall input output buf w, Forall good ops ->
  (buf <> None \/ Forall (fun p => p_update p = true) ops) ->
  exists w', run_updates oper ops input output buf w = Ok w' /\ bpool w' = bpool w /\ bn w' = bn w.
Proof.
  induction ops as [|op ops IH]; intros input output buf w Hg Hb; [cbn; eauto|].
  apply Forall_cons_iff in Hg as [Hop Hg]. cbn [run_updates].
  assert (Hb' : buf <> None \/ Forall (fun p => p_update p = true) ops).
  { destruct Hb as [Hb|Hb]; [auto|]. apply Forall_cons_iff in Hb as [_ Hb]. auto. }
  destruct (p_update op) eqn:Eu.
  - destruct (good_run op true input output w Hop (fun _ => Eu)) as (w1 & -> & H1 & H2). cbn [rbind].
    destruct (IH input output buf w1 Hg Hb') as (w' & E & H3 & H4). exists w'. split; [exact E|]. split; congruence.
  - destruct buf as [b|].
    + destruct (good_run op false input b w Hop) as (w1 & -> & H1 & H2); [discriminate|]. cbn [rbind].
      match goal with |- exists w', run_updates _ _ _ _ _ ?w2 = _ /\ _ => destruct (IH input output (Some b) w2 Hg Hb') as (w' & E & H3 & H4) end.
      exists w'. split; [exact E|]. cbn in H3, H4. split; congruence.
    + destruct Hb as [Hb|Hb]; [congruence|]. apply Forall_cons_iff in Hb as [Hb _]. congruence.
Qed.

Lemma exchange_updates (ops : list (operand V)) :
  match exchange ops with
  | [] => True
  | _ :: ops' => Nat.ltb 1 (length (filter (fun p => negb (p_update p)) ops)) = false -> Forall (fun p => p_update p = true) ops'
  end.
Proof.
  assert (Hf : forall l : list (operand V), length (filter (fun p => negb (p_update p)) l) = 0%nat -> Forall (fun p => p_update p = true) l).
  { induction l as [|p l IH]; cbn; [constructor|]. destruct (p_update p) eqn:E; cbn; [auto|discriminate]. }
  assert (Ht : forall (l l1 : list (operand V)) y l2, take_first (fun p => negb (p_update p)) l = Some (l1, y, l2) ->
    l = l1 ++ y :: l2 /\ p_update y = false /\ Forall (fun p => p_update p = true) l1).
  { induction l as [|p l IH]; cbn; [discriminate|]. intros l1 y l2. destruct (p_update p) eqn:E; cbn.
    - destruct (take_first _ l) as [[[l1' y'] l2']|]; [|discriminate]. intros H. injection H as <- <- <-.
      destruct (IH _ _ _ eq_refl) as (-> & H1 & H2). auto.
    - intros H. injection H as <- <- <-. auto. }
  assert (Hn : forall l : list (operand V), take_first (fun p => negb (p_update p)) l = None -> Forall (fun p => p_update p = true) l).
  { induction l as [|p l IH]; cbn; [constructor|]. destruct (p_update p) eqn:E; cbn; [|discriminate].
    destruct (take_first _ l) as [[[? ?] ?]|]; [discriminate|auto]. }
  unfold exchange. destruct (take_first _ ops) as [[[l1 y] l2]|] eqn:E.
  - destruct (Ht _ _ _ _ E) as (-> & Hy & H1). rewrite filter_app, app_length. cbn [filter]. rewrite Hy. cbn [negb length].
    destruct l1 as [|x l1]; cbn [app]; intros H; apply Nat.ltb_ge in H.
    + apply Hf. cbn in H. clear - H. lia.
    + apply Forall_cons_iff in H1 as [Hx H1]. apply Forall_app. split; [exact H1|]. constructor; [exact Hx|]. apply Hf. clear - H. lia.
  - pose proof (Hn _ E) as H. destruct ops; [exact I|]. intros _. apply Forall_cons_iff in H as [_ H]. exact H.
Qed.

Lemma commutative_ok ops input output w0 : (2 <= length ops)%nat -> Forall good ops -> ready c malloc input output w0 ->
  contigs (bpool w0) -> exists w', commutative_direct c malloc oper ops input output w0 = Ok w'.
Proof.
  intros Hlen Hg (Hw0 & _) Hc. unfold commutative_direct.
  replace (Nat.leb (length ops) 1) with false by (symmetry; apply Nat.leb_gt; exact Hlen).
  pose proof (exchange_perm ops) as Hp.
  assert (Hge : Forall good (exchange ops)) by (eapply Permutation_Forall; [symmetry; exact Hp|exact Hg]).
  pose proof (exchange_updates ops) as Hx.
  destruct (exchange ops) as [|op ops'] eqn:Ee.
  { apply Permutation_length in Hp. cbn in Hp. rewrite <- Hp in Hlen. clear - Hlen. lia. }
  apply Forall_cons_iff in Hge as [Hop Hge].
  destruct (good_run op false input output w0 Hop) as (w1 & -> & H1 & H2); [discriminate|]. cbn [rbind].
  destruct (Nat.ltb _ _) eqn:Et.
  - match goal with |- context [w_extract c malloc ?r w1] => destruct (w_extract c malloc r w1) as [b w2] eqn:Ex end.
    assert (X1 : ext w0 [] w1 []) by (eapply ext_same; [apply ext_refl; exact Hw0|exact H1|exact H2]).
    destruct (ext_extract _ _ _ _ _ _ _ X1 Ex) as (X2 & _ & _).
    destruct (extract_contig _ _ _ _ ltac:(rewrite H1; exact Hc) Ex) as (Hcb & Hnb & Hc2).
    unfold view. rewrite Hcb. unfold r_nbytes in Hnb. cbn [r_shape r_item] in Hnb.
    destruct (Z.leb_spec (a_item output * zprod (a_shape output)) (nbytes b)) as [_|Hlt]; [|clear - Hnb Hlt; lia].
    cbn [rbind].
    match goal with |- context [run_updates oper ops' input output (Some ?v) w2] =>
      destruct (run_updates_ok ops' input output (Some v) w2 Hge) as (w3 & -> & H3 & H4); [left; discriminate|] end.
    cbn [rbind]. apply add_succeeds.
    assert (X3 : ext w0 [] w3 [flat b]) by (eapply ext_same; eauto).
    eapply held_ok; [exact X3|]. rewrite flat_addrs. left. reflexivity.
  - destruct (run_updates_ok ops' input output None w1 Hge) as (w3 & E & _); [|eauto].
    right. exact (Hx eq_refl).
Qed.
End Loops.
End Buffers.

Lemma Forall2_mono {A B} (P Q : A -> B -> Prop) l1 l2 : (forall a b, P a b -> Q a b) -> Forall2 P l1 l2 -> Forall2 Q l1 l2.
Proof. intros H HF. induction HF; constructor; auto. Qed.

Lemma tame_sem {V} c malloc (oper : V -> V -> V) ops fs : Forall2 (tamely_means oper) ops fs -> Forall2 (sem c malloc oper true) ops fs.
Proof.
  apply Forall2_mono. intros op f [H1 H2]. split; [|intros _; split; assumption].
  split; [apply tame_behaves; exact H1|]. intros H. apply tame_behaves. exact (H2 H).
Qed.

Lemma means_sem {V} c malloc (oper : V -> V -> V) ops fs : Forall2 (means c malloc oper) ops fs -> Forall2 (sem c malloc oper false) ops fs.
Proof. apply Forall2_mono. intros op f H. split; [exact H|discriminate]. Qed.
