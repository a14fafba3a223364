(** Proofs about the comparison of values *)
From Coq Require Import String QArith Qabs Lia.
From Verif Require Import Base EqModel EqSpec.
Local Open Scope nat_scope.
Local Open Scope list_scope.

(** ** Induction on values *)
Definition leaf (c : content) : Prop := match c with CMap _ _ | COp _ _ | CSeq _ _ => False | _ => True end.
Section ValueInd.
  Context (P : value -> Prop).
  Context (Hmap : forall i ty l, Forall (fun p => P (snd p)) l -> P (V i (CMap ty l))).
  Context (Hop : forall i ty l, Forall (fun p => P (snd p)) l -> P (V i (COp ty l))).
  Context (Hseq : forall i ty l, Forall P l -> P (V i (CSeq ty l))).
  Context (Hleaf : forall i c, leaf c -> P (V i c)).
  Fixpoint value_rec_all (v : value) : P v :=
    match v with
    | V i c =>
        match c return P (V i c) with
        | CMap ty l => Hmap i ty l ((fix go l : Forall (fun p => P (snd p)) l := match l with [] => Forall_nil _ | p :: l => Forall_cons p (value_rec_all (snd p)) (go l) end) l)
        | COp ty l => Hop i ty l ((fix go l : Forall (fun p => P (snd p)) l := match l with [] => Forall_nil _ | p :: l => Forall_cons p (value_rec_all (snd p)) (go l) end) l)
        | CSeq ty l => Hseq i ty l ((fix go l : Forall P l := match l with [] => Forall_nil _ | p :: l => Forall_cons p (value_rec_all p) (go l) end) l)
        | CObj k => Hleaf i (CObj k) I
        | CInt k => Hleaf i (CInt k) I
        | CFloat k => Hleaf i (CFloat k) I
        | CArray k => Hleaf i (CArray k) I
        | CStr k => Hleaf i (CStr k) I
        | CMethod k f => Hleaf i (CMethod k f) I
        | CLambda k => Hleaf i (CLambda k) I
        end
    end.
End ValueInd.

(** ** Mappings *)
Lemma lookup_in k l v : lookup k l = Some v -> In (k, v) l.
Proof.
  induction l as [|[k' v'] l IH]; [discriminate|]. cbn [lookup]. destruct (String.eqb_spec k k') as [->|N].
  - intros E. injection E as ->. left. reflexivity.
  - intros E. right. auto.
Qed.
Lemma lookup_some k l : (exists v, lookup k l = Some v) <-> In k (map fst l).
Proof.
  induction l as [|[k' v'] l IH]; cbn [lookup map fst].
  - split; [intros [v E]; discriminate|intros []].
  - destruct (String.eqb_spec k k') as [->|N].
    + split; [intros _; left; reflexivity|intros _; exists v'; reflexivity].
    + rewrite IH. split; [intros H; right; exact H|intros [E|H]; [congruence|exact H]].
Qed.
Lemma in_lookup k l v : distinct l -> In (k, v) l -> lookup k l = Some v.
Proof.
  unfold distinct. induction l as [|[k' v'] l IH]; [intros _ []|]. cbn [lookup map fst]. intros D [E|H].
  - injection E as -> ->. rewrite String.eqb_refl. reflexivity.
  - inversion D as [|x xs N D']; subst. destruct (String.eqb_spec k k') as [->|N']; [|auto].
    exfalso. apply N. apply in_map_iff. exists (k', v). auto.
Qed.
Lemma subset_spec l l' : subset l l' = true <-> forall k, In k (map fst l) -> In k (map fst l').
Proof.
  unfold subset. rewrite forallb_forall. split.
  - intros H k K. apply in_map_iff in K. destruct K as [[k' v] [E K]]. cbn in E. subst k'. specialize (H _ K). cbn [fst] in H.
    apply lookup_some. destruct (lookup k l'); [eauto|discriminate].
  - intros H [k v] K. cbn [fst]. destruct (proj2 (lookup_some k l') (H k (in_map fst _ _ K))) as [w ->]. reflexivity.
Qed.
Lemma subsets l l' : subset l l' && subset l' l = true <-> same_keys l l'.
Proof.
  rewrite Bool.andb_true_iff, !subset_spec. unfold same_keys. split.
  - intros [A B] k. split; auto.
  - intros H. split; intros k; apply H.
Qed.
Lemma ignored_spec k : ignored k = true <-> cached k.
Proof.
  unfold ignored, cached. rewrite existsb_exists. split.
  - intros [x [H E]]. apply String.eqb_eq in E. subst. exact H.
  - intros H. exists k. split; [exact H|apply String.eqb_refl].
Qed.
Lemma kept_attributes l : kept l = attributes l.
Proof.
  unfold kept, attributes. induction l as [|[k v] l IH]; [reflexivity|]. cbn [filter fst]. rewrite IH.
  destruct (in_dec string_dec k _) as [H|H].
  - rewrite (proj2 (ignored_spec k) H). reflexivity.
  - destruct (ignored k) eqn:E; [|reflexivity]. apply ignored_spec in E. contradiction.
Qed.
Lemma attributes_distinct l : distinct l -> distinct (attributes l).
Proof.
  unfold distinct, attributes. induction l as [|[k v] l IH]; [auto|]. cbn [filter fst map]. intros D. inversion D as [|x xs N D']; subst.
  destruct (in_dec string_dec k _); [auto|]. cbn [map fst]. constructor; [|auto].
  intros H. apply N. apply in_map_iff in H. destruct H as [p [E H]]. apply filter_In in H. apply in_map_iff. exists p. tauto.
Qed.
Lemma attributes_in p l : In p (attributes l) -> In p l.
Proof. intros H. apply filter_In in H. tauto. Qed.
Lemma attributes_forall (P : string * value -> Prop) l : Forall P l -> Forall P (attributes l).
Proof. rewrite !Forall_forall. intros H p K. apply H, attributes_in, K. Qed.
Lemma same_keys_sym l l' : same_keys l l' -> same_keys l' l.
Proof. intros H k. symmetry. apply H. Qed.

(** ** Equations *)
Definition items (l' : list (string * value)) : list (string * value) -> result bool :=
  fix go l := match l with [] => Ok true | (k, v) :: l => also (match lookup k l' with Some w => all_eq v w | None => Raise KeyError end) (go l) end.
Fixpoint elements (l l' : list value) : result bool := match l, l' with v :: l, w :: l' => also (all_eq v w) (elements l l') | _, _ => Ok true end.
Definition by_items (ty ty' : nat) (l l' : list (string * value)) : result bool :=
  if negb (ty =? ty') then Ok false else if negb (subset l l' && subset l' l) then Ok false else items l' l.
Definition by_elements (ty ty' : nat) (l l' : list value) : result bool :=
  if negb (ty =? ty') then Ok false else if negb (length l =? length l') then Ok false else elements l l'.

Lemma all_eq_same i c c' : all_eq (V i c) (V i c') = Ok true.
Proof. destruct c; cbn [all_eq]; rewrite Nat.eqb_refl; reflexivity. Qed.
Lemma all_eq_map i j ty ty' l l' : i <> j -> all_eq (V i (CMap ty l)) (V j (CMap ty' l')) = by_items ty ty' l l'.
Proof. intros N. cbn [all_eq]. rewrite (proj2 (Nat.eqb_neq i j) N). reflexivity. Qed.
Lemma all_eq_op i j ty ty' l l' : i <> j -> all_eq (V i (COp ty l)) (V j (COp ty' l')) = by_items ty ty' (attributes l) (attributes l').
Proof.
  intros N. cbn [all_eq floating orb]. rewrite (proj2 (Nat.eqb_neq i j) N). rewrite <- !kept_attributes. unfold by_items.
  destruct (negb (ty =? ty')); [reflexivity|]. destruct (negb _); [reflexivity|].
  generalize (kept l'). intros m. induction l as [|[k v] l IH]; [reflexivity|]. cbn [kept filter fst]. fold (kept l).
  destruct (ignored k); cbn [negb]; [exact IH|]. cbn [items]. rewrite IH. reflexivity.
Qed.
Lemma all_eq_seq i j ty ty' l l' : i <> j -> all_eq (V i (CSeq ty l)) (V j (CSeq ty' l')) = by_elements ty ty' l l'.
Proof. intros N. cbn [all_eq floating orb]. rewrite (proj2 (Nat.eqb_neq i j) N). unfold by_elements. destruct (negb _); [reflexivity|]. destruct (negb _); reflexivity. Qed.
Lemma also_true r s : also r s = Ok true <-> r = Ok true /\ s = Ok true.
Proof. destruct r as [[|]|e]; cbn [also]; split; try tauto; try discriminate; intros [A B]; congruence. Qed.
Lemma items_true l l' : items l' l = Ok true <-> forall k v, In (k, v) l -> exists w, lookup k l' = Some w /\ all_eq v w = Ok true.
Proof.
  induction l as [|[k v] l IH]; cbn [items].
  - split; [intros _ k v []|reflexivity].
  - rewrite also_true. fold (items l'). rewrite IH. split.
    + intros [A B] k' v' [E|H]; [|auto]. injection E as <- <-. destruct (lookup k l') as [w|]; [eauto|discriminate].
    + intros H. split; [|intros k' v' K; apply H; right; exact K]. destruct (H k v (or_introl eq_refl)) as [w [-> E]]. exact E.
Qed.
Lemma elements_true l l' : length l = length l' -> elements l l' = Ok true <-> forall n v w, nth_error l n = Some v -> nth_error l' n = Some w -> all_eq v w = Ok true.
Proof.
  revert l'. induction l as [|v l IH]; intros [|w l'] L; try discriminate; cbn [elements].
  - split; [intros _ [|n]; discriminate|reflexivity].
  - rewrite also_true. injection L as L. rewrite (IH _ L). split.
    + intros [A B] [|n] v' w'; cbn [nth_error]; [intros E E'; congruence|apply B].
    + intros H. split; [exact (H 0 v w eq_refl eq_refl)|intros n; exact (H (S n))].
Qed.
Lemma by_items_true ty ty' l l' : distinct l ->
  by_items ty ty' l l' = Ok true <-> ty = ty' /\ same_keys l l' /\ forall k v w, lookup k l = Some v -> lookup k l' = Some w -> all_eq v w = Ok true.
Proof.
  intros D. unfold by_items. destruct (Nat.eqb_spec ty ty') as [->|N]; cbn [negb].
  2: { split; [discriminate|intros [E _]; contradiction]. }
  destruct (subset l l' && subset l' l) eqn:S; cbn [negb].
  - apply subsets in S. rewrite items_true. split.
    + intros H. split; [reflexivity|]. split; [exact S|]. intros k v w A B. destruct (H k v (lookup_in _ _ _ A)) as [w' [E F]]. congruence.
    + intros [_ [_ H]] k v K. assert (I : In k (map fst l')) by (apply S, (in_map fst _ _ K)). apply lookup_some in I. destruct I as [w E].
      exists w. split; [exact E|]. apply (H k); [apply in_lookup; assumption|exact E].
  - split; [discriminate|]. intros [_ [K _]]. apply subsets in K. congruence.
Qed.
Lemma by_elements_true ty ty' l l' :
  by_elements ty ty' l l' = Ok true <-> ty = ty' /\ length l = length l' /\ forall n v w, nth_error l n = Some v -> nth_error l' n = Some w -> all_eq v w = Ok true.
Proof.
  unfold by_elements. destruct (Nat.eqb_spec ty ty') as [->|N]; cbn [negb].
  2: { split; [discriminate|intros [E _]; contradiction]. }
  destruct (Nat.eqb_spec (length l) (length l')) as [E|N]; cbn [negb].
  - rewrite (elements_true _ _ E). tauto.
  - split; [discriminate|tauto].
Qed.

(** ** Numbers *)
Lemma isclose_spec x y : isclose x y = true <-> close x y.
Proof.
  destruct x, y; cbn [isclose close]; try (split; [discriminate|tauto]); try tauto.
  apply Qle_bool_iff.
Qed.
Lemma indices_in s i : In i (indices s) <-> inside i s.
Proof.
  unfold inside. revert i. induction s as [|n s IH]; intros i; cbn [indices].
  - split; [intros [<-|[]]; constructor|intros H; inversion H; left; reflexivity].
  - rewrite in_flat_map. split.
    + intros [x [A B]]. apply in_map_iff in B. destruct B as [r [<- B]]. apply in_seq in A. constructor; [lia|apply IH, B].
    + intros H. inversion H as [|x y xs ys L R]; subst. exists x. split; [apply in_seq; lia|]. apply in_map, IH, R.
Qed.
Lemma allclose_true a b : allclose a b = Ok true <-> exists A B s, as_array a = Some A /\ as_array b = Some B /\ bshape (a_shape A) (a_shape B) = Some s /\ forall k, inside k s -> close (bget A k) (bget B k).
Proof.
  unfold allclose. destruct (as_array a) as [A|]; [|split; [discriminate|intros (A & B & s & E & _); discriminate]].
  destruct (as_array b) as [B|]; [|split; [discriminate|intros (A' & B & s & _ & E & _); discriminate]].
  destruct (bshape (a_shape A) (a_shape B)) as [s|] eqn:E.
  - split.
    + intros H. injection H as H. rewrite forallb_forall in H. exists A, B, s. split; [reflexivity|]. split; [reflexivity|]. split; [exact E|].
      intros k K. apply isclose_spec, H, indices_in, K.
    + intros (A' & B' & s' & EA & EB & ES & H). injection EA as <-. injection EB as <-. rewrite E in ES. injection ES as <-.
      f_equal. apply forallb_forall. intros k K. apply isclose_spec, H, indices_in, K.
  - split; [discriminate|]. intros (A' & B' & s' & EA & EB & ES & H). injection EA as <-. injection EB as <-. congruence.
Qed.

(** ** The comparison decides the relation *)
Lemma sim_op' i j ty l l' : same_keys (attributes l) (attributes l') -> (forall k v w, lookup k (attributes l) = Some v -> lookup k (attributes l') = Some w -> similar v w) -> similar (V i (COp ty l)) (V j (COp ty l')).
Proof. intros A B. apply sim_op; assumption. Qed.

Lemma floats i j ca cb : i <> j -> match ca with CMap _ _ | CStr _ => False | _ => True end -> floating ca || floating cb = true -> all_eq (V i ca) (V j cb) = allclose ca cb.
Proof.
  intros N C F. destruct ca; try contradiction; cbn [all_eq]; rewrite (proj2 (Nat.eqb_neq i j) N); rewrite F; reflexivity.
Qed.
Lemma sim_floats i j ca cb : i <> j -> floating ca || floating cb = true -> similar (V i ca) (V j cb) <-> allclose ca cb = Ok true.
Proof.
  intros N F. split.
  - intros S. inversion S; subst; try discriminate; try contradiction.
    apply allclose_true. exists A, B, s. auto.
  - intros E. apply allclose_true in E. destruct E as (A & B & s & EA & EB & ES & H).
    apply Bool.orb_true_iff in F. exact (sim_num i j ca cb A B s F EA EB ES H).
Qed.
Lemma nth_forall {A} (P : A -> Prop) l n v : Forall P l -> nth_error l n = Some v -> P v.
Proof. intros H E. rewrite Forall_forall in H. apply H. exact (nth_error_In _ _ E). Qed.
Lemma lookup_forall (P : value -> Prop) l k v : Forall (fun p => P (snd p)) l -> lookup k l = Some v -> P v.
Proof. intros H E. rewrite Forall_forall in H. exact (H (k, v) (lookup_in _ _ _ E)). Qed.
Lemma wf_map_inv i ty l : wf (V i (CMap ty l)) -> distinct l /\ Forall (fun p => wf (snd p)) l.
Proof. intros H. inversion H; subst; [auto|contradiction]. Qed.
Lemma wf_op_inv i ty l : wf (V i (COp ty l)) -> distinct l /\ Forall (fun p => wf (snd p)) l.
Proof. intros H. inversion H; subst; [auto|contradiction]. Qed.
Lemma wf_seq_inv i ty l : wf (V i (CSeq ty l)) -> Forall wf l.
Proof. intros H. inversion H; subst; [auto|contradiction]. Qed.

Theorem all_eq_similar a : forall b, wf a -> all_eq a b = Ok true <-> similar a b.
Proof.
  induction a as [i ty l IH|i ty l IH|i ty l IH|i c L] using value_rec_all; intros [j cb] W;
    (destruct (Nat.eq_dec i j) as [<-|N]; [rewrite all_eq_same; split; [intros _; apply sim_same|reflexivity]|]).
  - apply wf_map_inv in W. destruct W as [D W].
    assert (O : match cb with CMap _ _ => False | _ => True end -> all_eq (V i (CMap ty l)) (V j cb) = Ok true <-> similar (V i (CMap ty l)) (V j cb)).
    { intros C. replace (all_eq (V i (CMap ty l)) (V j cb)) with (@Ok bool false).
      - split; [discriminate|]. intros S. inversion S; subst; try contradiction. discriminate.
      - cbn [all_eq]. rewrite (proj2 (Nat.eqb_neq i j) N). destruct cb; try reflexivity. contradiction. }
    destruct cb as [| | | | |ty' l'| | | |]; try (apply O; exact I). clear O.
    rewrite (all_eq_map _ _ _ _ _ _ N), (by_items_true _ _ _ _ D). split.
    + intros (-> & K & H). apply sim_map; [exact K|]. intros k v w A B. apply (lookup_forall (fun v => forall b, wf v -> all_eq v b = Ok true <-> similar v b) _ _ _ IH A); [exact (lookup_forall _ _ _ _ W A)|eauto].
    + intros S. inversion S; subst; try contradiction; try discriminate.
      split; [reflexivity|]. split; [assumption|]. intros k v w A B. apply (lookup_forall (fun v => forall b, wf v -> all_eq v b = Ok true <-> similar v b) _ _ _ IH A); [exact (lookup_forall _ _ _ _ W A)|eauto].
  - apply wf_op_inv in W. destruct W as [D W].
    destruct (floating cb) eqn:F.
    { rewrite floats by (auto; exact I). symmetry. apply sim_floats; auto. }
    assert (O : match cb with COp _ _ => False | _ => True end -> all_eq (V i (COp ty l)) (V j cb) = Ok true <-> similar (V i (COp ty l)) (V j cb)).
    { intros C. replace (all_eq (V i (COp ty l)) (V j cb)) with (@Ok bool false).
      - split; [discriminate|]. intros S. inversion S; subst; try contradiction. discriminate.
      - cbn [all_eq floating orb]. rewrite (proj2 (Nat.eqb_neq i j) N), F. destruct cb; try reflexivity. contradiction. }
    destruct cb as [| | | | | | | | |ty' l']; try (apply O; exact I). clear O.
    rewrite (all_eq_op _ _ _ _ _ _ N), (by_items_true _ _ _ _ (attributes_distinct _ D)).
    pose proof (attributes_forall _ _ IH) as IH'. pose proof (attributes_forall _ _ W) as W'. split.
    + intros (-> & K & H). apply sim_op; [exact K|]. intros k v w A B. apply (lookup_forall (fun v => forall b, wf v -> all_eq v b = Ok true <-> similar v b) _ _ _ IH' A); [exact (lookup_forall _ _ _ _ W' A)|eauto].
    + intros S. inversion S; subst; try contradiction; try discriminate.
      split; [reflexivity|]. split; [assumption|]. intros k v w A B. apply (lookup_forall (fun v => forall b, wf v -> all_eq v b = Ok true <-> similar v b) _ _ _ IH' A); [exact (lookup_forall _ _ _ _ W' A)|eauto].
  - apply wf_seq_inv in W.
    destruct (floating cb) eqn:F.
    { rewrite floats by (auto; exact I). symmetry. apply sim_floats; auto. }
    assert (O : match cb with CSeq _ _ => False | _ => True end -> all_eq (V i (CSeq ty l)) (V j cb) = Ok true <-> similar (V i (CSeq ty l)) (V j cb)).
    { intros C. replace (all_eq (V i (CSeq ty l)) (V j cb)) with (@Ok bool false).
      - split; [discriminate|]. intros S. inversion S; subst; try contradiction.
        match goal with H : _ \/ _ |- _ => destruct H as [H|H]; [discriminate|congruence] end.
      - cbn [all_eq floating orb]. rewrite (proj2 (Nat.eqb_neq i j) N), F. destruct cb; try reflexivity. contradiction. }
    destruct cb as [| | | | | |ty' l'| | |]; try (apply O; exact I). clear O.
    rewrite (all_eq_seq _ _ _ _ _ _ N), by_elements_true. split.
    + intros (-> & K & H). apply sim_seq; [exact K|]. intros n v w A B. apply (nth_forall (fun v => forall b, wf v -> all_eq v b = Ok true <-> similar v b) _ _ _ IH A); [exact (nth_forall _ _ _ _ W A)|eauto].
    + intros S. inversion S; subst; try contradiction.
      * match goal with H : _ \/ _ |- _ => destruct H as [H|H]; [discriminate|congruence] end.
      * split; [reflexivity|]. split; [assumption|]. intros n v w A B. apply (nth_forall (fun v => forall b, wf v -> all_eq v b = Ok true <-> similar v b) _ _ _ IH A); [exact (nth_forall _ _ _ _ W A)|eauto].
  - destruct (match c with CStr _ => true | _ => false end) eqn:ES.
    { destruct c as [| | | |s| | | | |]; try discriminate. cbn [all_eq]. rewrite (proj2 (Nat.eqb_neq i j) N). split.
      - destruct cb; try discriminate. intros E. injection E as E. apply String.eqb_eq in E. subst. constructor.
      - intros S. inversion S; subst; try contradiction; try discriminate. rewrite String.eqb_refl. reflexivity. }
    destruct (floating c || floating cb) eqn:F.
    { rewrite floats; [symmetry; apply sim_floats; auto|exact N| |exact F]. destruct c; try exact I; try contradiction. discriminate. }
    apply Bool.orb_false_iff in F. destruct F as [F1 F2]. split.
    + destruct c; try discriminate; try contradiction; cbn [all_eq floating orb]; rewrite (proj2 (Nat.eqb_neq i j) N), ?F2;
        destruct cb; try discriminate; intros E; injection E as E.
      * apply Nat.eqb_eq in E. subst. constructor.
      * apply Z.eqb_eq in E. subst. constructor.
      * apply Bool.andb_true_iff in E. destruct E as [E1 E2]. apply Nat.eqb_eq in E1, E2. subst. constructor.
      * apply Nat.eqb_eq in E. subst. constructor.
    + intros S. inversion S; subst; try contradiction; try discriminate; try (match goal with H : _ \/ _ |- _ => destruct H as [H|H]; congruence end);
        cbn [all_eq floating orb]; rewrite (proj2 (Nat.eqb_neq i j) N); rewrite ?Nat.eqb_refl, ?Z.eqb_refl; reflexivity.
Qed.

(** ** Copies *)
Lemma bshape_rev_same s : bshape_rev s s = Some s.
Proof. induction s as [|n s IH]; [reflexivity|]. cbn [bshape_rev]. rewrite IH, Nat.eqb_refl. reflexivity. Qed.
Lemma bshape_same s : bshape s s = Some s.
Proof. unfold bshape. rewrite bshape_rev_same. cbn. rewrite rev_involutive. reflexivity. Qed.
Lemma bget_same A i : inside i (a_shape A) -> bget A i = a_get A i.
Proof.
  intros H. unfold bget. assert (L : length i = length (a_shape A)) by (induction H; cbn; lia).
  rewrite L, Nat.sub_diag. cbn [skipn]. f_equal. clear L. induction H as [|x n i s L _ IH]; [reflexivity|]. cbn [combine map fst snd]. rewrite IH. f_equal.
  destruct (Nat.eqb_spec n 1); lia.
Qed.
Lemma close_refl x : x <> NaN -> close x x.
Proof.
  destruct x as [q| | |]; cbn [close]; intros H; try exact I; [|congruence].
  setoid_replace (q - q)%Q with 0%Q by ring. rewrite Qabs_pos by apply Qle_refl.
  assert (0 <= Qabs q)%Q by apply Qabs_nonneg. set (r := Qabs q) in *.
  apply (Qle_trans _ ((1 # 100000000) + 0)%Q); [unfold Qle; cbn; lia|]. apply Qplus_le_r. apply Qmult_le_0_compat; [unfold Qle; cbn; lia|exact H0].
Qed.
Lemma copy_keys (l l' : list (string * value)) : Forall2 (fun p q => fst p = fst q /\ copy (snd p) (snd q)) l l' -> map fst l = map fst l'.
Proof. intros H. induction H as [|p q l l' [E _] _ IH]; [reflexivity|]. cbn [map]. congruence. Qed.
Lemma copy_lookup l l' k v w : Forall2 (fun p q => fst p = fst q /\ copy (snd p) (snd q)) l l' -> lookup k l = Some v -> lookup k l' = Some w -> copy v w.
Proof.
  intros H. induction H as [|[k1 v1] [k2 v2] l l' [E C] _ IH]; [discriminate|]. cbn [fst snd] in *. subst k2. cbn [lookup].
  destruct (String.eqb k k1); [intros A B; congruence|exact IH].
Qed.
Lemma copy_attributes l l' : Forall2 (fun p q => fst p = fst q /\ copy (snd p) (snd q)) l l' -> Forall2 (fun p q => fst p = fst q /\ copy (snd p) (snd q)) (attributes l) (attributes l').
Proof.
  intros H. induction H as [|[k1 v1] [k2 v2] l l' [E C] H IH]; [constructor|]. cbn [fst snd] in *. subst k2. unfold attributes in *. cbn [filter fst].
  destruct (in_dec _ k1 _); [exact IH|]. constructor; [split; [reflexivity|exact C]|exact IH].
Qed.
Lemma copy_nth l l' n v w : Forall2 copy l l' -> nth_error l n = Some v -> nth_error l' n = Some w -> copy v w.
Proof. intros H. revert n. induction H as [|a b l l' C _ IH]; intros [|n]; try discriminate; cbn [nth_error]; [intros A B; congruence|apply IH]. Qed.

Lemma regular_inv i ty l : regular (V i (CMap ty l)) \/ regular (V i (COp ty l)) -> Forall (fun p => regular (snd p)) l.
Proof. intros [H|H]; inversion H; subst; try assumption; contradiction. Qed.
Lemma same_keys_eq (l l' : list (string * value)) : map fst l = map fst l' -> same_keys l l'.
Proof. intros E k. rewrite E. tauto. Qed.
Lemma copy_similar a : forall b, regular a -> copy a b -> similar a b.
Proof.
  induction a as [i ty l IH|i ty l IH|i ty l IH|i c L] using value_rec_all; intros b R C.
  - pose proof (regular_inv i ty l (or_introl R)) as RL. inversion C as [i0 j ty0 l0 l' H| | |]; subst; [|contradiction].
    apply sim_map; [apply same_keys_eq, copy_keys, H|]. intros k v w A B.
    apply (lookup_forall (fun v => forall b, regular v -> copy v b -> similar v b) _ _ _ IH A); [exact (lookup_forall _ _ _ _ RL A)|exact (copy_lookup _ _ _ _ _ H A B)].
  - pose proof (regular_inv i ty l (or_intror R)) as RL. inversion C as [|i0 j ty0 l0 l' H| |]; subst; [|contradiction].
    pose proof (copy_attributes _ _ H) as H'. pose proof (attributes_forall _ _ IH) as IH'. pose proof (attributes_forall _ _ RL) as RL'.
    apply sim_op; [apply same_keys_eq, copy_keys, H'|]. intros k v w A B.
    apply (lookup_forall (fun v => forall b, regular v -> copy v b -> similar v b) _ _ _ IH' A); [exact (lookup_forall _ _ _ _ RL' A)|exact (copy_lookup _ _ _ _ _ H' A B)].
  - assert (RL : Forall regular l) by (inversion R; subst; [assumption|contradiction]). inversion C as [| |i0 j ty0 l0 l' H|]; subst; [|contradiction].
    apply sim_seq; [clear -H; induction H; cbn; lia|]. intros n v w A B. apply (nth_forall _ _ _ _ IH A); [exact (nth_forall _ _ _ _ RL A)|exact (copy_nth _ _ _ _ _ H A B)].
  - assert (NN : no_nan c) by (inversion R; subst; try contradiction; assumption). inversion C; subst; try contradiction.
    destruct c as [|z|x|a|s| | |cl f|cd|]; try contradiction; try constructor.
    + apply (sim_num i j (CFloat x) (CFloat x) (Array [] (fun _ => x)) (Array [] (fun _ => x)) []); auto.
      intros k _. apply close_refl, NN.
    + apply (sim_num i j (CArray a) (CArray a) a a (a_shape a)); auto; [apply bshape_same|].
      intros k K. rewrite (bget_same _ _ K). apply close_refl, (NN k K).
Qed.

(** ** Values with no floating point number *)
Lemma exact_inv i ty l : exact (V i (CMap ty l)) \/ exact (V i (COp ty l)) -> Forall (fun p => exact (snd p)) l.
Proof. intros [H|H]; inversion H; subst; try assumption; contradiction. Qed.
Lemma exact_seq i ty l : exact (V i (CSeq ty l)) -> Forall exact l.
Proof. intros H. inversion H; subst; [assumption|contradiction]. Qed.
Lemma exact_floating i c : exact (V i c) -> floating c = false.
Proof. intros H. inversion H; subst; try reflexivity. destruct c; try reflexivity; contradiction. Qed.
Lemma similar_sym a b : similar a b -> exact a -> exact b -> similar b a.
Proof.
  intros S. induction S as [i c c'|i j ty l l' K H IH|i j s|i j ca cb A B s F EA EB ES H|i j ty l l' L H IH|i j c f|i j c|i j k|i j z|i j ty l l' K H IH]; intros XA XB; try constructor.
  - apply same_keys_sym, K.
  - intros k v w E E'. pose proof (exact_inv i ty l (or_introl XA)) as XA'. pose proof (exact_inv j ty l' (or_introl XB)) as XB'.
    apply (IH k w v E' E); [exact (lookup_forall _ _ _ _ XA' E')|exact (lookup_forall _ _ _ _ XB' E)].
  - exfalso. apply exact_floating in XA, XB. destruct F; congruence.
  - symmetry. exact L.
  - intros n v w E E'. pose proof (exact_seq i ty l XA) as XA'. pose proof (exact_seq j ty l' XB) as XB'.
    apply (IH n w v E' E); [exact (nth_forall _ _ _ _ XA' E')|exact (nth_forall _ _ _ _ XB' E)].
  - apply same_keys_sym, K.
  - intros k v w E E'. pose proof (attributes_forall _ _ (exact_inv i ty l (or_intror XA))) as XA'. pose proof (attributes_forall _ _ (exact_inv j ty l' (or_intror XB))) as XB'.
    apply (IH k w v E' E); [exact (lookup_forall _ _ _ _ XA' E')|exact (lookup_forall _ _ _ _ XB' E)].
Qed.
Lemma living_inv heap i ty l : living heap (V i (CMap ty l)) \/ living heap (V i (COp ty l)) -> Forall (fun p => living heap (snd p)) l.
Proof. intros [H|H]; inversion H; subst; try assumption; contradiction. Qed.
Lemma living_seq heap i ty l : living heap (V i (CSeq ty l)) -> Forall (living heap) l.
Proof. intros H. inversion H; subst; [assumption|contradiction]. Qed.
Lemma living_heap heap i c : living heap (V i c) -> heap i = c.
Proof. intros H. inversion H; subst; auto. Qed.
Lemma floats_sim i j ca cb : floating ca = false -> floating cb = false -> i <> j -> similar (V i ca) (V j cb) ->
  match ca, cb with
  | CMap ty l, CMap ty' l' => ty = ty' /\ same_keys l l' /\ forall k v w, lookup k l = Some v -> lookup k l' = Some w -> similar v w
  | COp ty l, COp ty' l' => ty = ty' /\ same_keys (attributes l) (attributes l') /\ forall k v w, lookup k (attributes l) = Some v -> lookup k (attributes l') = Some w -> similar v w
  | CSeq ty l, CSeq ty' l' => ty = ty' /\ length l = length l' /\ forall n v w, nth_error l n = Some v -> nth_error l' n = Some w -> similar v w
  | _, _ => ca = cb
  end.
Proof.
  intros FA FB N S. inversion S; subst; try reflexivity; try contradiction; auto.
  match goal with H : _ \/ _ |- _ => destruct H; congruence end.
Qed.
Lemma same_keys_lookup l l' k v : same_keys l l' -> lookup k l = Some v -> exists w, lookup k l' = Some w.
Proof. intros K E. apply lookup_some, K, lookup_some. eauto. Qed.
Lemma similar_trans heap a : forall b c, living heap a -> living heap b -> living heap c -> exact a -> exact b -> exact c -> similar a b -> similar b c -> similar a c.
Proof.
  induction a as [i ty l IH|i ty l IH|i ty l IH|i ca L] using value_rec_all; intros [j cb] [k cc] LA LB LC XA XB XC S S';
    (destruct (Nat.eq_dec i j) as [<-|N1]; [rewrite <- (living_heap _ _ _ LA), (living_heap _ _ _ LB); exact S'|]);
    (destruct (Nat.eq_dec j k) as [<-|N2]; [rewrite <- (living_heap _ _ _ LC), (living_heap _ _ _ LB); exact S|]);
    pose proof (exact_floating _ _ XA) as FA; pose proof (exact_floating _ _ XB) as FB; pose proof (exact_floating _ _ XC) as FC;
    apply (floats_sim _ _ _ _ FA FB N1) in S; apply (floats_sim _ _ _ _ FB FC N2) in S'.
  - destruct cb as [| | | | |ty' l'| | | |]; try discriminate. destruct cc as [| | | | |ty2 l2| | | |]; try discriminate.
    destruct S as (-> & K & H). destruct S' as (-> & K' & H').
    apply sim_map; [intros n; rewrite (K n); apply K'|]. intros n v w E E'. destruct (same_keys_lookup _ _ _ _ K E) as [u U].
    pose proof (living_inv heap _ _ _ (or_introl LA)) as A1. pose proof (living_inv heap _ _ _ (or_introl LB)) as A2. pose proof (living_inv heap _ _ _ (or_introl LC)) as A3.
    pose proof (exact_inv _ _ _ (or_introl XA)) as B1. pose proof (exact_inv _ _ _ (or_introl XB)) as B2. pose proof (exact_inv _ _ _ (or_introl XC)) as B3.
    refine (lookup_forall (fun a => forall b c, living heap a -> living heap b -> living heap c -> exact a -> exact b -> exact c -> similar a b -> similar b c -> similar a c) _ _ _ IH E u w _ _ _ _ _ _ _ _).
    + exact (lookup_forall _ _ _ _ A1 E).
    + exact (lookup_forall _ _ _ _ A2 U).
    + exact (lookup_forall _ _ _ _ A3 E').
    + exact (lookup_forall _ _ _ _ B1 E).
    + exact (lookup_forall _ _ _ _ B2 U).
    + exact (lookup_forall _ _ _ _ B3 E').
    + exact (H n v u E U).
    + exact (H' n u w U E').
  - destruct cb as [| | | | | | | | |ty' l']; try discriminate. destruct cc as [| | | | | | | | |ty2 l2]; try discriminate.
    destruct S as (-> & K & H). destruct S' as (-> & K' & H').
    apply sim_op; [intros n; rewrite (K n); apply K'|]. intros n v w E E'. destruct (same_keys_lookup _ _ _ _ K E) as [u U].
    pose proof (attributes_forall _ _ (living_inv heap _ _ _ (or_intror LA))) as A1. pose proof (attributes_forall _ _ (living_inv heap _ _ _ (or_intror LB))) as A2. pose proof (attributes_forall _ _ (living_inv heap _ _ _ (or_intror LC))) as A3.
    pose proof (attributes_forall _ _ (exact_inv _ _ _ (or_intror XA))) as B1. pose proof (attributes_forall _ _ (exact_inv _ _ _ (or_intror XB))) as B2. pose proof (attributes_forall _ _ (exact_inv _ _ _ (or_intror XC))) as B3.
    pose proof (attributes_forall _ _ IH) as IH'.
    refine (lookup_forall (fun a => forall b c, living heap a -> living heap b -> living heap c -> exact a -> exact b -> exact c -> similar a b -> similar b c -> similar a c) _ _ _ IH' E u w _ _ _ _ _ _ _ _); eauto.
    + exact (lookup_forall _ _ _ _ A1 E).
    + exact (lookup_forall _ _ _ _ A2 U).
    + exact (lookup_forall _ _ _ _ A3 E').
    + exact (lookup_forall _ _ _ _ B1 E).
    + exact (lookup_forall _ _ _ _ B2 U).
    + exact (lookup_forall _ _ _ _ B3 E').
  - destruct cb as [| | | | | |ty' l'| | |]; try discriminate. destruct cc as [| | | | | |ty2 l2| | |]; try discriminate.
    destruct S as (-> & K & H). destruct S' as (-> & K' & H').
    apply sim_seq; [congruence|]. intros n v w E E'.
    assert (U : exists u, nth_error l' n = Some u).
    { destruct (nth_error l' n) as [u|] eqn:U; [eauto|]. exfalso. apply nth_error_None in U. assert (nth_error l n <> None) as X by congruence. apply nth_error_Some in X. lia. }
    destruct U as [u U].
    pose proof (living_seq heap _ _ _ LA) as A1. pose proof (living_seq heap _ _ _ LB) as A2. pose proof (living_seq heap _ _ _ LC) as A3.
    pose proof (exact_seq _ _ _ XA) as B1. pose proof (exact_seq _ _ _ XB) as B2. pose proof (exact_seq _ _ _ XC) as B3.
    refine (nth_forall (fun a => forall b c, living heap a -> living heap b -> living heap c -> exact a -> exact b -> exact c -> similar a b -> similar b c -> similar a c) _ _ _ IH E u w _ _ _ _ _ _ _ _); eauto using (nth_forall (living heap)), (nth_forall exact).
  - assert (cb = ca) as -> by (destruct ca; try contradiction; congruence).
    assert (cc = ca) as -> by (destruct ca; try contradiction; congruence).
    destruct ca; try contradiction; try discriminate; constructor.
Qed.

(** No exception without floating point numbers *)
Lemma also_ok r s : (exists x, r = Ok x) -> (exists x, s = Ok x) -> exists x, also r s = Ok x.
Proof. intros [[|] ->] H; cbn [also]; eauto. Qed.
Lemma items_ok l l' : (forall k, In k (map fst l) -> In k (map fst l')) -> Forall (fun p => forall w, lookup (fst p) l' = Some w -> exists r, all_eq (snd p) w = Ok r) l -> exists r, items l' l = Ok r.
Proof.
  intros K H. induction H as [|[k v] l H1 _ IH]; cbn [items]; [eauto|]. cbn [fst snd] in H1. apply also_ok.
  - destruct (proj2 (lookup_some k l') (K k (or_introl eq_refl))) as [w E]. rewrite E. auto.
  - apply IH. intros k' I'. apply K. right. exact I'.
Qed.
Lemma elements_ok l l' : Forall (fun v => forall w, In w l' -> exists r, all_eq v w = Ok r) l -> exists r, elements l l' = Ok r.
Proof.
  intros H. revert l' H. induction l as [|v l IH]; intros l' H; cbn [elements]; [eauto|]. destruct l' as [|w l']; [eauto|].
  inversion H as [|x xs H1 H2]; subst. apply also_ok; [apply H1; left; reflexivity|]. apply IH. revert H2. apply Forall_impl. intros u U w' I'. apply U. right. exact I'.
Qed.
Lemma by_items_ok ty ty' l l' : Forall (fun p => forall w, lookup (fst p) l' = Some w -> exists r, all_eq (snd p) w = Ok r) l -> exists r, by_items ty ty' l l' = Ok r.
Proof.
  intros H. unfold by_items. destruct (negb (ty =? ty')); [eauto|]. destruct (subset l l') eqn:S; cbn [andb negb]; [|eexists; reflexivity]. destruct (negb _); [eexists; reflexivity|].
  apply items_ok; [apply subset_spec, S|exact H].
Qed.
Lemma by_elements_ok ty ty' l l' : Forall (fun v => forall w, In w l' -> exists r, all_eq v w = Ok r) l -> exists r, by_elements ty ty' l l' = Ok r.
Proof. intros H. unfold by_elements. destruct (negb (ty =? ty')); [eauto|]. destruct (negb _); [eauto|]. apply elements_ok, H. Qed.
Lemma exact_ok a : forall b, exact a -> exact b -> exists r, all_eq a b = Ok r.
Proof.
  induction a as [i ty l IH|i ty l IH|i ty l IH|i c L] using value_rec_all; intros [j cb] XA XB; pose proof (exact_floating _ _ XB) as FB;
    (destruct (Nat.eq_dec i j) as [<-|N]; [rewrite all_eq_same; eauto|]).
  - destruct cb as [| | | | |ty' l'| | | |]; try (cbn [all_eq]; rewrite (proj2 (Nat.eqb_neq i j) N); eauto; fail).
    rewrite all_eq_map by exact N. apply by_items_ok. pose proof (exact_inv i ty l (or_introl XA)) as XA'. pose proof (exact_inv j ty' l' (or_introl XB)) as XB'.
    rewrite Forall_forall in *. intros p I' w E. apply IH; [exact I'|apply XA', I'|]. exact (XB' _ (lookup_in _ _ _ E)).
  - destruct cb as [| | | | | | | | |ty' l']; try discriminate; try (cbn [all_eq floating orb]; rewrite (proj2 (Nat.eqb_neq i j) N); eauto; fail).
    rewrite all_eq_op by exact N. apply by_items_ok. pose proof (attributes_forall _ _ (exact_inv i ty l (or_intror XA))) as XA'. pose proof (attributes_forall _ _ (exact_inv j ty' l' (or_intror XB))) as XB'.
    apply attributes_forall in IH. rewrite Forall_forall in *. intros p I' w E. apply IH; [exact I'|apply XA', I'|]. exact (XB' _ (lookup_in _ _ _ E)).
  - destruct cb as [| | | | | |ty' l'| | |]; try discriminate; try (cbn [all_eq floating orb]; rewrite (proj2 (Nat.eqb_neq i j) N); eauto; fail).
    rewrite all_eq_seq by exact N. apply by_elements_ok. pose proof (exact_seq i ty l XA) as XA'. pose proof (exact_seq j ty' l' XB) as XB'.
    rewrite Forall_forall in *. intros v I' w I2. apply IH; auto.
  - pose proof (exact_floating _ _ XA) as FA. destruct c; try contradiction; try discriminate; cbn [all_eq floating orb]; rewrite (proj2 (Nat.eqb_neq i j) N), ?FB; destruct cb; eauto.
Qed.

(** The cached attributes have no effect *)
Lemma attributes_idem l : attributes (attributes l) = attributes l.
Proof. unfold attributes. induction l as [|[k v] l IH]; [reflexivity|]. cbn [filter fst]. destruct (in_dec string_dec k _) eqn:E; [exact IH|]. cbn [filter fst]. rewrite E, IH. reflexivity. Qed.
Lemma all_eq_cached i j ty ty' l l' m m' : attributes l = attributes m -> attributes l' = attributes m' -> all_eq (V i (COp ty l)) (V j (COp ty' l')) = all_eq (V i (COp ty m)) (V j (COp ty' m')).
Proof.
  intros E E'. destruct (Nat.eq_dec i j) as [<-|N]; [rewrite !all_eq_same; reflexivity|]. rewrite !all_eq_op by exact N. rewrite E, E'. reflexivity.
Qed.

(** ** Arrays *)
Lemma bshape_rev_some a b s : bshape_rev a b = Some s ->
  (forall k, nth k a 1 = nth k b 1 \/ nth k a 1 = 1 \/ nth k b 1 = 1) /\ length s = Nat.max (length a) (length b) /\ forall k, nth k s 1 = if nth k a 1 =? 1 then nth k b 1 else nth k a 1.
Proof.
  revert b s. induction a as [|x a IH]; intros b s; cbn [bshape_rev].
  - intros E. injection E as <-. split; [intros [|k]; auto|]. split; [reflexivity|]. intros [|k]; reflexivity.
  - destruct b as [|y b].
    + intros E. injection E as <-. split; [intros [|k]; cbn [nth]; auto; destruct k; auto|]. split; [cbn; lia|].
      intros k. replace (nth k [] 1) with 1 by (destruct k; reflexivity). destruct (Nat.eqb_spec (nth k (x :: a) 1) 1); auto.
    + destruct (bshape_rev a b) as [r|] eqn:E; [|discriminate]. destruct (IH _ _ E) as (C & L & D). intros H.
      assert (G : forall z, s = z :: r -> (x = y \/ x = 1 \/ y = 1) -> z = (if x =? 1 then y else x) ->
        (forall k, nth k (x :: a) 1 = nth k (y :: b) 1 \/ nth k (x :: a) 1 = 1 \/ nth k (y :: b) 1 = 1) /\ length s = Nat.max (length (x :: a)) (length (y :: b)) /\ forall k, nth k s 1 = if nth k (x :: a) 1 =? 1 then nth k (y :: b) 1 else nth k (x :: a) 1).
      { intros z -> X Z. split; [intros [|k]; cbn [nth]; [exact X|apply C]|]. split; [cbn [length]; lia|]. intros [|k]; cbn [nth]; [exact Z|apply D]. }
      destruct (Nat.eqb_spec x y) as [->|N].
      { injection H as <-. apply (G y); auto. destruct (y =? 1); reflexivity. }
      destruct (Nat.eqb_spec x 1) as [->|N1].
      { injection H as <-. apply (G y); auto. }
      destruct (Nat.eqb_spec y 1) as [->|N2]; [|discriminate].
      injection H as <-. apply (G x); auto.
Qed.
Lemma bshape_rev_none a b : (forall k, nth k a 1 = nth k b 1 \/ nth k a 1 = 1 \/ nth k b 1 = 1) -> exists s, bshape_rev a b = Some s.
Proof.
  revert b. induction a as [|x a IH]; intros b H; cbn [bshape_rev]; [eauto|]. destruct b as [|y b]; [eauto|].
  destruct (IH b (fun k => H (S k))) as [r ->]. specialize (H 0). cbn [nth] in H.
  destruct (Nat.eqb_spec x y); [eauto|]. destruct (Nat.eqb_spec x 1); [eauto|]. destruct (Nat.eqb_spec y 1); [eauto|]. lia.
Qed.
Lemma bshape_some a b s : bshape a b = Some s -> compatible a b /\ length s = Nat.max (length a) (length b) /\ forall k, dim s k = common a b k.
Proof.
  unfold bshape. destruct (bshape_rev (rev a) (rev b)) as [r|] eqn:E; [|discriminate]. intros H. cbn in H. injection H as <-.
  destruct (bshape_rev_some _ _ _ E) as (C & L & D). split; [exact C|]. rewrite !rev_length in *. split; [exact L|].
  intros k. unfold dim at 1. rewrite rev_involutive. apply D.
Qed.
Lemma bshape_none a b : compatible a b -> exists s, bshape a b = Some s.
Proof. intros C. destruct (bshape_rev_none (rev a) (rev b) C) as [r E]. unfold bshape. rewrite E. cbn. eauto. Qed.
Lemma combine_snoc {A B} (l : list A) (m : list B) x y : length l = length m -> combine (l ++ [x]) (m ++ [y]) = combine l m ++ [(x, y)].
Proof. revert m. induction l as [|a l IH]; intros [|b m] L; try discriminate; [reflexivity|]. cbn [app combine]. rewrite IH by (injection L; auto). reflexivity. Qed.
Lemma combine_rev {A B} (l : list A) (m : list B) : length l = length m -> combine (rev l) (rev m) = rev (combine l m).
Proof.
  revert m. induction l as [|x l IH]; intros [|y m] L; try discriminate; [reflexivity|]. cbn [rev combine]. injection L as L. rewrite <- IH by exact L.
  apply combine_snoc. rewrite !rev_length. exact L.
Qed.
Lemma map_combine_seq (r : list nat) : forall f, map (fun p => if fst p =? 1 then 0 else snd p) (combine r (map f (seq 0 (length r)))) = map (fun k => if nth k r 1 =? 1 then 0 else f k) (seq 0 (length r)).
Proof.
  induction r as [|x r IH]; intros f; [reflexivity|]. cbn [length seq map combine fst snd nth]. f_equal. rewrite <- seq_shift, !map_map. apply (IH (fun k => f (S k))).
Qed.
Lemma bget_element A f n : length (a_shape A) <= n -> bget A (rev (map f (seq 0 n))) = element A f.
Proof.
  intros L. unfold bget, element. f_equal. rewrite rev_length, map_length, seq_length.
  replace (skipn (n - length (a_shape A)) (rev (map f (seq 0 n)))) with (rev (map f (seq 0 (length (a_shape A))))).
  - rewrite <- (rev_involutive (a_shape A)) at 1. rewrite <- (rev_length (a_shape A)).
    rewrite combine_rev by (rewrite map_length, seq_length; reflexivity). rewrite map_rev. f_equal. apply map_combine_seq.
  - replace n with (length (a_shape A) + (n - length (a_shape A))) at 2 by lia. rewrite seq_app, map_app, rev_app_distr.
    rewrite skipn_app. rewrite !rev_length, !map_length, !seq_length, Nat.sub_diag. cbn [skipn].
    rewrite skipn_all2 by (rewrite rev_length, map_length, seq_length; lia). reflexivity.
Qed.
Lemma Forall2_app_inv' {A B} (R : A -> B -> Prop) l l' x y : Forall2 R l l' -> R x y -> Forall2 R (l ++ [x]) (l' ++ [y]).
Proof. intros H X. apply Forall2_app; [exact H|]. constructor; [exact X|constructor]. Qed.
Lemma inside_rev i s : Forall2 lt i s -> Forall2 lt (rev i) (rev s).
Proof. intros H. induction H as [|x y i s L _ IH]; [constructor|]. cbn [rev]. apply Forall2_app_inv'; assumption. Qed.
Lemma inside_seq r : forall f, (forall k, k < length r -> f k < nth k r 1) -> Forall2 lt (map f (seq 0 (length r))) r.
Proof.
  induction r as [|x r IH]; intros f H; [constructor|]. cbn [length seq map]. constructor; [exact (H 0 (Nat.lt_0_succ _))|].
  rewrite <- seq_shift, map_map. apply (IH (fun k => f (S k))). intros k K. apply (H (S k)). cbn [length]. lia.
Qed.
Lemma inside_nth r : forall i, Forall2 lt i r -> forall k, nth k i 0 < nth k r 1.
Proof. intros i H. induction H as [|x y i r L _ IH]; intros [|k]; cbn [nth]; auto. Qed.
Lemma map_nth_seq (l : list nat) : map (fun k => nth k l 0) (seq 0 (length l)) = l.
Proof. induction l as [|x l IH]; [reflexivity|]. cbn [length seq map nth]. f_equal. rewrite <- seq_shift, map_map. exact IH. Qed.
Lemma arrays_close A B : (exists s, bshape (a_shape A) (a_shape B) = Some s /\ forall k, inside k s -> close (bget A k) (bget B k))
  <-> compatible (a_shape A) (a_shape B) /\ forall f, (forall k, f k < common (a_shape A) (a_shape B) k) -> close (element A f) (element B f).
Proof.
  split.
  - intros (s & E & H). destruct (bshape_some _ _ _ E) as (C & L & D). split; [exact C|]. intros f F.
    specialize (H (rev (map f (seq 0 (length s))))). rewrite !bget_element in H by lia. apply H.
    unfold inside. rewrite <- (rev_involutive s) at 2. apply inside_rev. rewrite <- (rev_length s). apply inside_seq. intros k _. change (nth k (rev s) 1) with (dim s k). rewrite D. apply F.
  - intros [C H]. destruct (bshape_none _ _ C) as [s E]. exists s. split; [exact E|]. destruct (bshape_some _ _ _ E) as (_ & L & D). intros i I'.
    apply inside_rev in I'. pose proof (inside_nth _ _ I') as N.
    assert (Li : length i = length s) by (rewrite <- (rev_length i), <- (rev_length s); clear -I'; induction I'; cbn; lia).
    replace i with (rev (map (fun k => nth k (rev i) 0) (seq 0 (length s)))).
    + rewrite !bget_element by lia. apply H. intros k. rewrite <- D. apply N.
    + rewrite <- Li, <- (rev_length i), map_nth_seq. apply rev_involutive.
Qed.
Lemma scalars_numbers l r : scalars l = Some r <-> Forall2 (fun v x => number v = Some x) l r.
Proof.
  revert r. induction l as [|[i c] l IH]; intros r; cbn [scalars content_of].
  - split; [intros E; injection E as <-; constructor|intros H; inversion H; reflexivity].
  - assert (N : scalar_of c = number (V i c)) by (destruct c; reflexivity). rewrite N. split.
    + destruct (number (V i c)) as [x|] eqn:E; [|discriminate]. destruct (scalars l) as [r'|] eqn:E'; [|discriminate]. intros H. injection H as <-. constructor; [exact E|]. apply IH. reflexivity.
    + intros H. inversion H as [|v x l0 r' E F]; subst. rewrite E. apply IH in F. rewrite F. reflexivity.
Qed.
Lemma arrays_eq i j A B : i <> j -> all_eq (V i (CArray A)) (V j (CArray B)) = allclose (CArray A) (CArray B).
Proof. intros N. apply floats; auto. Qed.
Lemma allclose_arrays a b A B : as_array a = Some A -> as_array b = Some B ->
  (allclose a b = Ok true <-> compatible (a_shape A) (a_shape B) /\ forall f, (forall k, f k < common (a_shape A) (a_shape B) k) -> close (element A f) (element B f))
  /\ (allclose a b = Raise ValueError <-> ~ compatible (a_shape A) (a_shape B)).
Proof.
  intros EA EB. split.
  - rewrite <- arrays_close, allclose_true. split.
    + intros (A' & B' & s & EA' & EB' & H). rewrite EA in EA'. injection EA' as <-. rewrite EB in EB'. injection EB' as <-. exists s. exact H.
    + intros (s & H). exists A, B, s. auto.
  - unfold allclose. rewrite EA, EB. destruct (bshape (a_shape A) (a_shape B)) as [s|] eqn:E.
    + split; [discriminate|]. intros H. exfalso. apply H. apply (bshape_some _ _ _ E).
    + split; [|reflexivity]. intros _ C. destruct (bshape_none _ _ C) as [s E']. congruence.
Qed.
Lemma allclose_vectors a b A B n : as_array a = Some A -> as_array b = Some B -> a_shape A = [n] -> a_shape B = [n] ->
  allclose a b = Ok true <-> forall k, k < n -> close (a_get A [k]) (a_get B [k]).
Proof.
  intros EA EB SA SB. rewrite allclose_true. split.
  - intros (A' & B' & s & EA' & EB' & E & H). rewrite EA in EA'. injection EA' as <-. rewrite EB in EB'. injection EB' as <-.
    rewrite SA, SB, bshape_same in E. injection E as <-. intros k K.
    assert (I' : inside [k] [n]) by (constructor; [exact K|constructor]). specialize (H _ I'). rewrite !bget_same in H by (rewrite ?SA, ?SB; exact I'). exact H.
  - intros H. exists A, B, [n]. split; [exact EA|]. split; [exact EB|]. rewrite SA, SB, bshape_same. split; [reflexivity|].
    intros i I'. rewrite !bget_same by (rewrite ?SA, ?SB; exact I'). inversion I' as [|k m i' s K R]; subst. inversion R; subst. apply H, K.
Qed.
Lemma as_array_seq ty l r : Forall2 (fun v x => number v = Some x) l r -> as_array (CSeq ty l) = Some (Array [length r] (fun i => nth (hd 0 i) r NaN)).
Proof. intros H. apply scalars_numbers in H. cbn [as_array]. rewrite H. reflexivity. Qed.
Lemma as_array_number i c x : number (V i c) = Some x -> as_array c = Some (Array [] (fun _ => x)).
Proof. destruct c; cbn; try discriminate; intros E; injection E as <-; reflexivity. Qed.
Lemma allclose_numbers i j a b x y : number (V i a) = Some x -> number (V j b) = Some y -> allclose a b = Ok true <-> close x y.
Proof.
  intros E E'. unfold allclose. rewrite (as_array_number _ _ _ E), (as_array_number _ _ _ E'). cbn [a_shape bshape rev bshape_rev option_map indices forallb]. cbn. rewrite Bool.andb_true_r.
  rewrite <- isclose_spec. split; [intros H; injection H; auto|intros ->; reflexivity].
Qed.
