From Verif Require Import Base ProxyModel ProxySpec.

(** ** Proxies *)
Section Proxies.
Variable cb : nat -> nat -> option nat.
Hypothesis Hfresh : fresh cb.

Fixpoint objs (cs : list nat) (os : list nat) : Prop :=
  match cs, os with
  | [], [] => True
  | i :: cs', o :: os' => cb i (length cs') = Some o /\ objs cs' os'
  | _, _ => False
  end.
Record pinv (s : pstate) : Prop := {
  p_calls : exists l, calls s = cnum s :: l;
  p_objects : exists l, objects s = cobj s :: l /\ forall o, deleted s o = true <-> In o l;
  p_objs : objs (calls s) (objects s)
}.

Lemma objs_in cs : forall os o, objs cs os -> In o os -> exists i n, cb i n = Some o /\ n < length cs.
Proof.
  induction cs as [|i cs IH]; intros [|o' os] o; simpl; try tauto.
  intros [H1 H2] [E|Hin]; [subst; exists i, (length cs); split; [exact H1|lia]|].
  destruct (IH _ _ H2 Hin) as [j [n [A B]]]. exists j, n. split; [exact A|lia].
Qed.

Lemma cobj_alive s : pinv s -> deleted s (cobj s) = false.
Proof.
  intros [[lc Hc] [l [Ho Hd]] Hs]. apply not_true_iff_false. rewrite Hd. intros Hin.
  rewrite Hc, Ho in Hs. simpl in Hs. destruct Hs as [H1 H2].
  destruct (objs_in _ _ _ H2 Hin) as [j [n [A B]]]. assert (n = length lc) by (eapply (proj2 Hfresh); eauto). lia.
Qed.

Lemma cobj_of s : pinv s -> operator_of cb (cnum s) (cobj s).
Proof.
  intros [[lc Hc] [l [Ho _]] Hs]. rewrite Hc, Ho in Hs. simpl in Hs. destruct Hs as [H1 _]. exists (length lc). exact H1.
Qed.

Lemma proxy_group_inv : exists s, proxy_group cb = Some s /\ pinv s /\ calls s = [0] /\ cnum s = 0.
Proof.
  unfold proxy_group. destruct (proj1 Hfresh 0 0) as [o E]. rewrite E. eexists. split; [reflexivity|].
  split; [|split; reflexivity]. constructor; simpl; eauto.
  - exists []. split; [reflexivity|]. intros x. simpl. split; [discriminate|tauto].
Qed.

Lemma get_operator_ok i s : pinv s ->
  exists s', get_operator cb i s = (s', Some (cobj s')) /\ pinv s' /\ cnum s' = i
    /\ rev (calls s') = rev (calls s) ++ changes (cnum s) [i].
Proof.
  intros Hi. unfold get_operator. simpl. rewrite (Nat.eqb_sym i). destruct (Nat.eqb_spec (cnum s) i) as [E|E].
  - exists s. rewrite app_nil_r. auto.
  - destruct (proj1 Hfresh i (length (calls s))) as [o Eo]. rewrite Eo.
    match goal with |- exists s', (?r, _) = _ /\ _ => exists r end. split; [reflexivity|].
    split; [|split; [reflexivity|reflexivity]].
    destruct Hi as [[lc Hc] [l [Ho Hd]] Hs]. constructor; simpl; [eauto| |].
    + exists (objects s). split; [reflexivity|]. intros x. rewrite Ho. simpl. rewrite orb_true_iff, Nat.eqb_eq, Hd. split; intros [A|A]; auto.
    + auto.
Qed.

Definition right_use (i : nat) (u : use) (e : effect) : Prop :=
  match u with
  | Call j a => exists o, operator_of cb j o /\ e = Called o a
  | Shape j a m => exists o, operator_of cb i o /\ e = Shaped o (method_of_associated a m)
  end.

Lemma uses_ok us : forall s, pinv s -> exists s' es, do_uses cb us s = (s', es) /\ pinv s'
  /\ rev (calls s') = rev (calls s) ++ changes (cnum s) (flat_map called us)
  /\ forall k u e, nth_error us k = Some u -> nth_error es k = Some e ->
       right_use (last (flat_map called (firstn k us)) (cnum s)) u e.
Proof.
  induction us as [|u us IH]; intros s Hs; simpl.
  - exists s, []. rewrite app_nil_r. repeat split; auto; try apply Hs. intros [|k]; discriminate.
  - destruct u as [i a|i a m].
    + destruct (get_operator_ok i s Hs) as [s1 [E1 [H1 [N1 C1]]]]. unfold do_use. rewrite E1, (cobj_alive s1 H1).
      destruct (IH s1 H1) as [s2 [es [E2 [H2 [C2 R2]]]]]. rewrite E2. exists s2, (Called (cobj s1) a :: es).
      split; [reflexivity|]. split; [exact H2|]. split.
      * rewrite C2, C1, N1, <- app_assoc. f_equal. simpl. destruct (Nat.eqb_spec i (cnum s)) as [E|E].
        -- rewrite E. reflexivity.
        -- reflexivity.
      * intros [|k] v e; simpl.
        -- intros [= <-] [= <-]. simpl. exists (cobj s1). split; [|reflexivity]. rewrite <- N1. apply cobj_of, H1.
        -- intros A B. specialize (R2 k v e A B). rewrite N1 in R2.
           replace (match flat_map called (firstn k us) with [] => i | _ :: _ => last (flat_map called (firstn k us)) (cnum s) end)
             with (last (flat_map called (firstn k us)) i); [exact R2|].
           destruct (flat_map called (firstn k us)) as [|y l]; [reflexivity|]. clear.
           revert y. induction l as [|z l IHl]; intros y; [reflexivity|]. exact (IHl z).
    + simpl. rewrite (cobj_alive s Hs). destruct (IH s Hs) as [s2 [es [E2 [H2 [C2 R2]]]]]. rewrite E2.
      eexists s2, (_ :: es). split; [reflexivity|]. split; [exact H2|]. split; [exact C2|].
      intros [|k] v e; simpl; [|apply R2]. intros [= <-] [= <-]. simpl. exists (cobj s). split; [apply cobj_of, Hs|].
      destruct a; reflexivity.
Qed.

Lemma uses_alive us s s' es : pinv s -> do_uses cb us s = (s', es) ->
  forall o, In o (objects s') -> deleted s' o = false <-> o = cobj s'.
Proof.
  intros Hs E. destruct (uses_ok us s Hs) as [s2 [es2 [E2 [H2 _]]]]. rewrite E in E2. injection E2 as <- <-.
  intros o Hin. split; [|intros ->; apply cobj_alive, H2].
  destruct H2 as [_ [l [Ho Hd]] _]. intros D. rewrite Ho in Hin. destruct Hin as [A|A]; [auto|].
  apply Hd in A. congruence.
Qed.
End Proxies.

(** ** Attribute caching *)
Definition handle (s : mstate) (j : nat) : nat := nth j (handles s) 0.
Record minv (s : mstate) (t : sstate) : Prop := {
  m_len : length (handles s) = created t;
  m_comm : length (comms s) = ncomm t;
  m_live : forall j, live t j = true -> j < created t /\ In (handle s j) (keyvals s);
  m_inj : forall i j, live t i = true -> live t j = true -> handle s i = handle s j -> i = j;
  m_att : forall c j, live t j = true -> att t c j = aget (handle s j) (nth c (comms s) []);
  m_none : forall c k, aget k (nth c (comms s) []) <> None -> exists j, live t j = true /\ handle s j = k;
  m_dead : forall c j, created t <= j -> att t c j = None
}.

Lemma mem_In k l : mem k l = true <-> In k l.
Proof.
  unfold mem. rewrite existsb_exists. split.
  - intros [x [A B]]. apply Nat.eqb_eq in B. subst; auto.
  - intros A. exists k. rewrite Nat.eqb_refl. auto.
Qed.
Lemma maxl_le k l : In k l -> k <= maxl l.
Proof. induction l; simpl; [tauto|]. intros [->|A]; [lia|]. specialize (IHl A). lia. Qed.
Lemma aget_adel k k' d : aget k (adel k' d) = if k =? k' then None else aget k d.
Proof.
  induction d as [|[k2 v] d IH]; simpl; [destruct (k =? k'); reflexivity|].
  destruct (Nat.eqb_spec k2 k') as [A|A]; simpl.
  - rewrite IH. destruct (Nat.eqb_spec k k'); [reflexivity|]. destruct (Nat.eqb_spec k k2); [congruence|reflexivity].
  - destruct (Nat.eqb_spec k k2) as [B|B]; [|exact IH]. subst. destruct (Nat.eqb_spec k2 k'); [congruence|reflexivity].
Qed.
Lemma aget_aset k k' v d : aget k (aset k' v d) = if k =? k' then Some v else aget k d.
Proof. unfold aset. simpl. rewrite aget_adel. destruct (k =? k'); reflexivity. Qed.
Lemma upd_length {A} (l : list A) : forall i x, length (upd l i x) = length l.
Proof. induction l; intros [|i] x; simpl; auto. Qed.
Lemma upd_nth {A} (l : list A) : forall i x c d, i < length l -> nth c (upd l i x) d = if c =? i then x else nth c l d.
Proof.
  induction l as [|y l IH]; intros i x c d H; [simpl in H; lia|].
  destruct i as [|i]; destruct c as [|c]; simpl; try reflexivity. apply IH. simpl in H. lia.
Qed.

Lemma minv_start : minv mstart sstart.
Proof.
  constructor; simpl; auto; try discriminate.
  intros [|[|c]] k H; simpl in H; congruence.
Qed.

Lemma mexec_ok o s t : minv s t -> allowed o t ->
  minv (fst (mexec o s)) (fst (sexec o t)) /\ snd (mexec o s) = snd (sexec o t).
Proof.
  intros Hi Ha. destruct Hi as [Hl Hc Hv Hj Hat Hn Hd].
  assert (Mem : forall j, live t j = true -> mem (nth j (handles s) 0) (keyvals s) = true).
  { intros j L. apply mem_In. apply (Hv j L). }
  destruct o as [|j|c|c j|c j v|c j]; simpl in Ha |- *.
  - split; [|reflexivity].
    set (id := match keyvals s with [] => 1 | _ => maxl (keyvals s) + 1 end).
    assert (Hid : forall k, In k (keyvals s) -> k <> id).
    { intros k Hk. unfold id. pose proof (maxl_le k _ Hk). destruct (keyvals s); [destruct Hk|lia]. }
    assert (Hold : forall i, i < created t -> nth i (handles s ++ [id]) 0 = nth i (handles s) 0) by (intros i L; rewrite app_nth1; [reflexivity|lia]).
    assert (Hnew : nth (created t) (handles s ++ [id]) 0 = id).
    { rewrite app_nth2 by lia. rewrite Hl, Nat.sub_diag. reflexivity. }
    assert (Hnid : forall c, aget id (nth c (comms s) []) = None).
    { intros c. destruct (aget id (nth c (comms s) [])) eqn:E; [|reflexivity]. exfalso.
      destruct (Hn c id) as [j [A B]]; [congruence|]. apply (Hid (handle s j)); [apply Hv, A|exact B]. }
    constructor; unfold handle; cbn [handles keyvals comms live created ncomm att].
    + rewrite app_length. simpl. lia.
    + exact Hc.
    + intros j. rewrite orb_true_iff, Nat.eqb_eq. intros [->|L].
      * rewrite Hnew. split; [lia|left; reflexivity].
      * destruct (Hv j L) as [A B]. rewrite Hold by exact A. split; [lia|right; exact B].
    + intros i j. rewrite !orb_true_iff, !Nat.eqb_eq.
      intros [->|Li] [->|Lj]; [reflexivity| | |].
      * rewrite Hnew, (Hold j) by apply (Hv j Lj). intros E. exfalso. apply (Hid (nth j (handles s) 0)); [apply Hv, Lj|congruence].
      * rewrite Hnew, (Hold i) by apply (Hv i Li). intros E. exfalso. apply (Hid (nth i (handles s) 0)); [apply Hv, Li|congruence].
      * rewrite (Hold j) by apply (Hv j Lj). rewrite (Hold i) by apply (Hv i Li). apply Hj; assumption.
    + intros c j. rewrite orb_true_iff, Nat.eqb_eq. intros [->|L].
      * rewrite Hnew, Hnid. apply Hd. lia.
      * rewrite Hold by apply (Hv j L). apply Hat, L.
    + intros c k H. destruct (Hn c k H) as [j [A B]]. exists j. rewrite A, orb_true_r. split; [reflexivity|].
      rewrite Hold by apply (Hv j A). exact B.
    + intros c j L. apply Hd. lia.
  - destruct Ha as [L Hnone]. rewrite Mem by exact L. split; [|reflexivity].
    constructor; unfold handle; cbn [fst handles keyvals comms live created ncomm att]; auto.
    + intros i. rewrite andb_true_iff, negb_true_iff, Nat.eqb_neq. intros [A B]. destruct (Hv i B) as [D E].
      split; [exact D|]. apply filter_In. split; [exact E|]. rewrite negb_true_iff, Nat.eqb_neq. intros F. apply A.
      apply Hj; auto.
    + intros i k. rewrite !andb_true_iff. intros [_ A] [_ B]. apply Hj; auto.
    + intros c i. rewrite andb_true_iff. intros [_ A]. apply Hat, A.
    + intros c k H. destruct (Hn c k H) as [i [A B]]. exists i. split; [|exact B].
      rewrite A, andb_true_r, negb_true_iff, Nat.eqb_neq. intros ->. apply H. rewrite <- B. rewrite <- Hat by exact A. apply Hnone.
  - split; [|reflexivity].
    assert (E : forall c, nth c (comms s ++ [[]]) [] = nth c (comms s) []).
    { intros c'. destruct (Nat.lt_ge_cases c' (length (comms s))); [apply app_nth1; assumption|].
      rewrite app_nth2, (nth_overflow (comms s)) by assumption. destruct (c' - length (comms s)) as [|[|]]; reflexivity. }
    constructor; unfold handle; cbn [fst handles keyvals comms live created ncomm att]; auto.
    + rewrite app_length. simpl. lia.
    + intros. rewrite E. apply Hat; assumption.
    + intros c' k. rewrite E. apply Hn.
  - destruct Ha as [L Lc]. rewrite Mem by exact L. split; [constructor; auto|]. simpl. rewrite Hat by exact L. reflexivity.
  - destruct Ha as [L Lc]. rewrite Mem by exact L. split; [|reflexivity].
    assert (E : forall c' k, aget k (nth c' (upd (comms s) c (aset (nth j (handles s) 0) v (nth c (comms s) []))) []) =
                if (c' =? c) && (k =? handle s j) then Some v else aget k (nth c' (comms s) [])).
    { intros c' k. rewrite upd_nth by lia. destruct (Nat.eqb_spec c' c) as [->|]; simpl; [|reflexivity]. apply aget_aset. }
    constructor; unfold handle; cbn [fst handles keyvals comms live created ncomm att]; auto.
    + rewrite upd_length. exact Hc.
    + intros c' i Li. rewrite E, Hat by exact Li. fold (handle s i).
      destruct (Nat.eqb_spec i j) as [->|N]; [rewrite Nat.eqb_refl; reflexivity|].
      destruct (Nat.eqb_spec (handle s i) (handle s j)) as [F|F]; [|reflexivity]. exfalso. apply N, Hj; assumption.
    + intros c' k. rewrite E. destruct ((c' =? c) && (k =? handle s j)) eqn:B; [|apply Hn].
      intros _. exists j. split; [exact L|]. apply andb_true_iff in B. destruct B as [_ B]. apply Nat.eqb_eq in B. auto.
    + intros c' i Li. destruct ((c' =? c) && (i =? j)) eqn:B; [|apply Hd; exact Li].
      apply andb_true_iff in B. destruct B as [_ B]. apply Nat.eqb_eq in B. subst. destruct (Hv j L). lia.
  - destruct Ha as [L Lc]. rewrite (Hat c j L). fold (handle s j).
    destruct (aget (handle s j) (nth c (comms s) [])) eqn:G; [|split; [constructor; auto|reflexivity]].
    split; [|reflexivity].
    assert (E : forall c' k, aget k (nth c' (upd (comms s) c (adel (handle s j) (nth c (comms s) []))) []) =
                if (c' =? c) && (k =? handle s j) then None else aget k (nth c' (comms s) [])).
    { intros c' k. rewrite upd_nth by lia. destruct (Nat.eqb_spec c' c) as [->|]; simpl; [|reflexivity]. apply aget_adel. }
    constructor; unfold handle; cbn [fst handles keyvals comms live created ncomm att]; auto.
    + rewrite upd_length. exact Hc.
    + intros c' i Li. fold (handle s i). rewrite E, Hat by exact Li. fold (handle s i).
      destruct (Nat.eqb_spec i j) as [->|N]; [rewrite Nat.eqb_refl; reflexivity|].
      destruct (Nat.eqb_spec (handle s i) (handle s j)) as [F|F]; [|reflexivity]. exfalso. apply N, Hj; assumption.
    + intros c' k. rewrite E. destruct ((c' =? c) && (k =? handle s j)) eqn:B; [congruence|apply Hn].
    + intros c' i Li. destruct ((c' =? c) && (i =? j)); [reflexivity|apply Hd; exact Li].
Qed.

Lemma mexecs_ok os : forall s t, minv s t -> all_allowed os t -> snd (mexecs os s) = snd (sexecs os t).
Proof.
  induction os as [|o os IH]; intros s t Hi; simpl; [reflexivity|]. intros [Ha Hr].
  destruct (mexec_ok o s t Hi Ha) as [H1 H2].
  destruct (mexec o s) as [s1 r1], (sexec o t) as [t1 r2]. simpl in *. subst r2.
  specialize (IH s1 t1 H1 Hr). destruct (mexecs os s1), (sexecs os t1). simpl in *. congruence.
Qed.
