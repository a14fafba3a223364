From Verif Require Import Base Algebra SeqModel BlockModel BlockSpec BlockProofs DiagModel DiagSpec.

Lemma clip_project s idx : clip s idx = project s idx.
Proof. revert idx. induction s as [|n s IH]; intros [|i idx]; cbn; congruence. Qed.
Lemma clip_inside s idx : inside s idx -> clip s idx = idx.
Proof.
  intros H. induction H as [|n i s idx Hi H IH]; auto. cbn. rewrite IH. destruct (Nat.eqb_spec n 1); auto. f_equal. lia.
Qed.
Lemma inside_rev s idx : inside s idx -> inside (rev s) (rev idx).
Proof. unfold inside. intros H. induction H; cbn; auto. apply Forall2_app; auto. Qed.
Lemma stretched_same {A} (x : array A) idx : inside (ashape x) idx -> stretched x idx = aval x idx.
Proof. intros H. unfold stretched. rewrite clip_inside by (apply inside_rev; auto). rewrite rev_involutive. reflexivity. Qed.
Lemma shape_eqb_refl s : shape_eqb s s = true.
Proof. unfold shape_eqb. destruct (list_eq_dec Nat.eq_dec s s); congruence. Qed.
Lemma bc_refl s : bc s s = Ok s.
Proof. induction s as [|n s IH]; auto. cbn. rewrite Nat.eqb_refl, IH. reflexivity. Qed.
Lemma bc_stretch d s : stretches d s -> bc d s = Ok s /\ bc s d = Ok s.
Proof.
  revert s. induction d as [|n d IH]; intros [|m s] H; cbn in *; auto; try contradiction.
  destruct H as [H1 H2]. destruct (IH s H2) as [-> ->]. destruct (Nat.eqb_spec n m) as [->|N].
  - rewrite Nat.eqb_refl. auto.
  - destruct H1 as [->|]; [|congruence]. cbn. destruct (Nat.eqb_spec m 1); [congruence|]. split; auto.
Qed.
Lemma stretches_refl s : stretches s s.
Proof. induction s; cbn; auto. Qed.

(** fits, as numpy sees it *)
Lemma fits_left b d s : b <> Rightward -> fits b d s -> stretches (rev d) (rev s).
Proof. destruct b; cbn; try congruence; auto. intros _ ->. apply stretches_refl. Qed.
Lemma left_coefficient {A} b (d : array A) idx : b <> Rightward -> stretched d idx = coefficient b d idx.
Proof. intros N. unfold stretched, coefficient, facing. rewrite clip_project. destruct b; auto. congruence. Qed.
Lemma right_coefficient {A} (d : array A) idx : stretched (transpose d) (rev idx) = coefficient Rightward d idx.
Proof. unfold stretched, coefficient, facing, transpose. cbn [ashape aval]. rewrite !rev_involutive, clip_project. reflexivity. Qed.

Lemma ufunc2_out_ok {A B C} (f : A -> B -> C) (x : array A) (d : array B) : stretches (rev (ashape d)) (rev (ashape x)) ->
  ufunc2_out f x d (ashape x) = Ok (Arr (ashape x) (fun idx => f (stretched x idx) (stretched d idx))).
Proof.
  intros H. unfold ufunc2_out. destruct (bc_stretch _ _ H) as [_ ->]. cbn [rbind]. rewrite bc_refl. cbn [rbind]. rewrite shape_eqb_refl. reflexivity.
Qed.

(** The general form of direct *)
Definition broadcast_direct {A B} (f : A -> B -> A) (d : array B) (b : bcast) (x : array A) : result (array A) :=
  match b with
  | Rightward => r <- ufunc2_out f (transpose x) (transpose d) (rev (ashape x)) ;; Ok (transpose r)
  | _ => ufunc2_out f x d (ashape x)
  end.
Lemma direct_ok {A B} (f : A -> B -> A) (d : array B) b (x : array A) : fits b (ashape d) (ashape x) ->
  exists y, broadcast_direct f d b x = Ok y /\ elementwise (fun idx v => f v (coefficient b d idx)) x y.
Proof.
  intros F. assert (HL : b <> Rightward -> exists y, ufunc2_out f x d (ashape x) = Ok y /\ elementwise (fun idx v => f v (coefficient b d idx)) x y).
  { intros N. rewrite ufunc2_out_ok by (eapply fits_left; eauto). eexists. split; [reflexivity|]. split; [reflexivity|]. intros idx I. cbn [aval].
    rewrite stretched_same by auto. rewrite (left_coefficient b) by auto. reflexivity. }
  destruct b; try (apply HL; congruence). cbn [broadcast_direct].
  change (rev (ashape x)) with (ashape (transpose x)). rewrite ufunc2_out_ok by (cbn; rewrite !rev_involutive; exact F).
  cbn [rbind]. eexists. split; [reflexivity|]. split; [cbn; apply rev_involutive|]. intros idx I.
  match goal with |- aval (transpose ?r) idx = _ => change (aval (transpose r) idx) with (aval r (rev idx)) end. cbn [aval].
  rewrite (right_coefficient d). assert (stretched (transpose x) (rev idx) = aval x idx) as ->; auto.
  rewrite stretched_same by (cbn; apply inside_rev; auto). cbn. rewrite rev_involutive. reflexivity.
Qed.

(** ** inspect_special_values *)
Section Inspect.
Context {K : dring}.

Lemma deq_true (x y : K) : deq x y = true -> x = y.
Proof. apply deq_ok. Qed.
Lemma deq_refl (x : K) : deq x x = true.
Proof. apply deq_ok. reflexivity. Qed.
Lemma deq_false (x y : K) : deq x y = false -> x <> y.
Proof. intros H ->. rewrite deq_refl in H. discriminate. Qed.

Definition zero_b (x : K) : bool := deq x r0.
Definition one_b (x : K) : bool := negb (deq x r0) && deq x r1.
Definition mone_b (x : K) : bool := negb (deq x r0) && negb (deq x r1) && deq x (ropp r1).
Definition three_b (x : K) : bool := zero_b x || one_b x || mone_b x.
Definition cnt {X} (f : X -> bool) (v : list X) : nat := length (filter f v).

Lemma loop_exact v0 : forall v m z o other same, (other = true -> same = true) ->
  inspect_loop (K := K) v0 v m z o other same =
  if other || negb (forallb three_b v) then (0, 0, 0, true, same && forallb (fun x => deq x v0) v)
  else (m + cnt mone_b v, z + cnt zero_b v, o + cnt one_b v, false, same && forallb (fun x => deq x v0) v).
Proof.
  induction v as [|x v IH]; intros m z o other same HS; cbn [inspect_loop].
  - destruct other; cbn; rewrite ?(HS eq_refl), ?Nat.add_0_r, ?andb_true_r; reflexivity.
  - cbn [forallb]. set (same' := same && deq x v0).
    assert (G : forall m' z' o' other', (other' = other || negb (three_b x)) -> (other' = false -> m' + cnt mone_b v = m + cnt mone_b (x :: v) /\ z' + cnt zero_b v = z + cnt zero_b (x :: v) /\ o' + cnt one_b v = o + cnt one_b (x :: v)) ->
      (if negb same' && other' then (0, 0, 0, true, false) else inspect_loop v0 v m' z' o' other' same') =
      if other || negb (three_b x && forallb three_b v) then (0, 0, 0, true, same && (deq x v0 && forallb (fun x => deq x v0) v))
      else (m + cnt mone_b (x :: v), z + cnt zero_b (x :: v), o + cnt one_b (x :: v), false, same && (deq x v0 && forallb (fun x => deq x v0) v))).
    { intros m' z' o' other' Eo Ec. rewrite andb_assoc. fold same'. destruct (negb same' && other') eqn:E.
      - apply andb_true_iff in E as [E1 E2]. apply negb_true_iff in E1. rewrite E1. cbn [andb].
        assert (other || negb (three_b x && forallb three_b v) = true) as ->; auto.
        rewrite E2 in Eo. destruct other; auto. cbn in *. destruct (three_b x); auto; discriminate.
      - rewrite IH.
        + assert (other' || negb (forallb three_b v) = other || negb (three_b x && forallb three_b v)) as ->.
          { rewrite Eo. destruct other, (three_b x), (forallb three_b v); reflexivity. }
          destruct (other || negb (three_b x && forallb three_b v)) eqn:E'; auto.
          destruct other' eqn:Eo'. { destruct other, (three_b x); cbn in *; discriminate. }
          destruct (Ec eq_refl) as (-> & -> & ->). reflexivity.
        + intros ->. destruct same'; [auto|discriminate]. }
    unfold three_b, zero_b, one_b, mone_b, cnt in *. cbn [filter] in *.
    destruct (deq x r0) eqn:E0; [|destruct (deq x r1) eqn:E1; [|destruct (deq x (ropp r1)) eqn:E2]]; cbn [andb orb negb] in *.
    + apply G; [rewrite orb_false_r; reflexivity|]. intros _. cbn [length]. lia.
    + apply G; [rewrite orb_false_r; reflexivity|]. intros _. cbn [length]. lia.
    + apply G; [rewrite orb_false_r; reflexivity|]. intros _. cbn [length]. lia.
    + apply G; [rewrite orb_true_r; reflexivity|]. discriminate.
Qed.
Lemma cnt_le {X} (f : X -> bool) v : cnt f v <= length v.
Proof. unfold cnt. induction v as [|x v IH]; cbn; auto. destruct (f x); cbn; lia. Qed.
Lemma cnt_all {X} (f : X -> bool) v : cnt f v = length v -> forall x, In x v -> f x = true.
Proof.
  unfold cnt. induction v as [|y v IH]; cbn; [tauto|]. intros H x [->|Hx].
  - destruct (f x); auto. assert (L := cnt_le f v). unfold cnt in L. lia.
  - apply IH; auto. assert (L := cnt_le f v). unfold cnt in L. destruct (f y); cbn in H; lia.
Qed.
Lemma cnt_three v : forallb three_b v = true -> cnt mone_b v + cnt zero_b v + cnt one_b v = length v.
Proof.
  unfold cnt, three_b, zero_b, one_b, mone_b. induction v as [|x v IH]; cbn [forallb filter length]; auto. intros H.
  apply andb_true_iff in H as [H1 H2]. specialize (IH H2). destruct (deq x r0), (deq x r1), (deq x (ropp r1)); cbn in *; try discriminate; lia.
Qed.
(** What the constructors rely on. *)
Record inspected (v : list K) (m z o : nat) (same : bool) : Prop := {
  all_same : same = true -> exists c v', v = c :: v' /\ forall x, In x v -> x = c;
  all_zero : z = length v -> forall x, In x v -> x = r0;
  all_one : o = length v -> forall x, In x v -> x = r1;
  zero_one : o + z = length v -> forall x, In x v -> x = r0 \/ x = r1;
  pm_one : m + o = length v -> forall x, In x v -> x = r1 \/ x = ropp r1 }.
Lemma inspect_sound v m z o other same : inspect v = (m, z, o, other, same) -> inspected v m z o same.
Proof.
  unfold inspect. destruct v as [|v0 v'].
  - intros [= <- <- <- <- <-]. split; cbn; intros; try contradiction; discriminate.
  - rewrite loop_exact by discriminate. set (v := v0 :: v'). cbn [orb andb].
    assert (HS : forallb (fun x => deq x v0) v = true -> exists c w, v = c :: w /\ forall x, In x v -> x = c).
    { intros H. exists v0, v'. split; auto. intros x Hx. rewrite forallb_forall in H. apply deq_true, H, Hx. }
    destruct (forallb three_b v) eqn:T; cbn [negb].
    + intros [= <- <- <- <- <-]. assert (N := cnt_three v T). cbn [plus] in *. rewrite forallb_forall in T. split; auto.
      * intros E x Hx. apply cnt_all with (f := zero_b) in Hx; [apply deq_true; exact Hx|auto].
      * intros E x Hx. apply cnt_all with (f := one_b) in Hx; auto. apply andb_true_iff in Hx as [_ Hx]. apply deq_true; auto.
      * intros E x Hx. assert (C0 : cnt mone_b v = 0) by lia.
        assert (Tx := T x Hx). unfold three_b, zero_b, one_b in Tx.
        destruct (deq x r0) eqn:E0; [left; apply deq_true; auto|]. destruct (deq x r1) eqn:E1; [right; apply deq_true; auto|]. cbn in Tx.
        assert (In x (filter mone_b v)) by (apply filter_In; split; auto). unfold cnt in C0. destruct (filter mone_b v); [contradiction|discriminate].
      * intros E x Hx. assert (C0 : cnt zero_b v = 0) by lia.
        assert (Tx := T x Hx). destruct (zero_b x) eqn:E0.
        { assert (In x (filter zero_b v)) by (apply filter_In; split; auto). unfold cnt in C0. destruct (filter zero_b v); [contradiction|discriminate]. }
        unfold three_b in Tx. rewrite E0 in Tx. cbn in Tx. apply orb_true_iff in Tx as [Tx|Tx]; unfold one_b, mone_b in Tx.
        -- left. apply deq_true. apply andb_true_iff in Tx as [_ Tx]. auto.
        -- right. apply deq_true. apply andb_true_iff in Tx as [_ Tx]. auto.
    + intros [= <- <- <- <- <-]. split; auto; cbn; discriminate.
Qed.
Lemma bool_sound v m z o other same : inspect_bool v = (m, z, o, other, same) ->
  (z = length v -> forall x, In x v -> x = false) /\ (o = length v -> z <> length v -> forall x, In x v -> x = true).
Proof.
  unfold inspect_bool. destruct v as [|v0 v']; [intros _; split; cbn; tauto|]. set (v := v0 :: v'). intros [= <- <- <- <- <-]. split.
  - intros E x Hx. assert (H := cnt_all negb v E x Hx). destruct x; auto; discriminate.
  - intros E N x Hx. assert (L := cnt_le negb v). unfold cnt in L. destruct x; auto.
    assert (In false (filter negb v)) by (apply filter_In; auto). assert (0 < length (filter negb v)) by (destruct (filter negb v); [contradiction|cbn; lia]).
    assert (E' : length v - length (filter negb v) = length v) by exact E. clear - L E' H0. lia.
Qed.
End Inspect.

(** ** The operators *)
Section Ops.
Context {K : dring}.
Add Ring KringD : (rth K).

Lemma coefficient_in {A} b (d : array A) s idx : fits b (ashape d) s -> inside s idx -> In (coefficient b d idx) (ravel d).
Proof.
  intros F I. unfold coefficient, ravel. apply in_map, in_indices. unfold facing.
  assert (G : forall d s idx, stretches d s -> inside s idx -> inside d (project d idx)).
  { clear. induction d as [|n d IH]; intros s idx S I; cbn; [constructor|]. destruct s as [|m s]; [destruct S|]. destruct S as [S1 S2].
    inversion I as [|? i ? idx' Hi I']; subst. cbn. constructor; [|eapply IH; eauto]. destruct (Nat.eqb_spec n 1) as [->|N1]; [apply Nat.lt_0_1|]. destruct S1 as [S1|S1]; [congruence|]. rewrite S1. exact Hi. }
  assert (L : b <> Rightward -> inside (ashape d) (rev (project (rev (ashape d)) (rev idx)))).
  { intros N. rewrite <- (rev_involutive (ashape d)) at 1. apply inside_rev. eapply G; [eapply fits_left; eauto|apply inside_rev; eauto]. }
  destruct b; try (apply L; congruence). eapply G; eauto.
Qed.

Lemma combine_rev {A B} (l : list A) (m : list B) : length l = length m -> combine (rev l) (rev m) = rev (combine l m).
Proof.
  revert m. induction l as [|a l IH]; intros [|b m] H; try discriminate; auto. cbn in *. rewrite <- IH by lia.
  assert (G : forall (l1 : list A) (m1 : list B) l2 m2, length l1 = length m1 -> combine (l1 ++ l2) (m1 ++ m2) = combine l1 m1 ++ combine l2 m2).
  { clear. induction l1 as [|x l1 IH]; intros [|y m1] l2 m2 H; try discriminate; auto. cbn in *. rewrite IH by lia. reflexivity. }
  rewrite G by (rewrite !rev_length; lia). reflexivity.
Qed.
Lemma existsb_rev_ {A} (f : A -> bool) l : existsb f (rev l) = existsb f l.
Proof.
  induction l as [|a l IH]; auto. cbn. rewrite existsb_app, IH. cbn. rewrite orb_false_r, orb_comm. reflexivity.
Qed.

(** the shape check *)
Definition shape_ok (op : diag K) (s : list nat) : Prop := d_shape op = None \/ d_shape op = Some s.
Lemma shape_of b (d s : list nat) : fits b d s -> (match b with Disabled => Some d | _ => None end) = None \/ (match b with Disabled => Some d | _ => None end) = Some s.
Proof. destruct b; cbn; auto. intros ->. auto. Qed.

Lemma validatein_ok b d s : fits b d s -> b <> Disabled -> validatein d b s = Ok tt.
Proof.
  intros F N. assert (G : forall d s, stretches d s -> length d <= length s /\ existsb (fun sd => negb (Nat.eqb (snd sd) 1) && negb (Nat.eqb (snd sd) (fst sd))) (combine (firstn (length d) s) d) = false).
  { clear. induction d as [|n d IH]; intros s H; [split; cbn; [lia|reflexivity]|]. destruct s as [|m s]; [destruct H|]. destruct H as [H1 H2]. destruct (IH s H2) as [L E].
    cbn. split; [lia|]. rewrite E, orb_false_r. destruct H1 as [->| ->]; [reflexivity|]. rewrite Nat.eqb_refl, andb_false_r. reflexivity. }
  unfold validatein. destruct b; try congruence; cbn [fits] in F.
  - destruct (G _ _ F) as [L E]. rewrite !rev_length in *. destruct (Nat.ltb_spec (length s) (length d)); [lia|].
    assert (combine (skipn (length s - length d) s) d = rev (combine (firstn (length d) (rev s)) (rev d))) as ->.
    { rewrite firstn_rev, combine_rev by (rewrite skipn_length; lia). rewrite rev_involutive. reflexivity. }
    rewrite existsb_rev_ , E. reflexivity.
  - destruct (G _ _ F) as [L E]. destruct (Nat.ltb_spec (length s) (length d)); [lia|]. rewrite E. reflexivity.
  - destruct (G _ _ F) as [L E]. rewrite !rev_length in *. destruct (Nat.ltb_spec (length s) (length d)); [lia|].
    assert (combine (skipn (length s - length d) s) d = rev (combine (firstn (length d) (rev s)) (rev d))) as ->.
    { rewrite firstn_rev, combine_rev by (rewrite skipn_length; lia). rewrite rev_involutive. reflexivity. }
    rewrite existsb_rev_, E. reflexivity.
Qed.

Definition same_shape (sh : option (list nat)) (s : list nat) : Prop := sh = None \/ sh = Some s.
Lemma check_ok sh s (e : result unit) : same_shape sh s -> (sh = None -> e = Ok tt) ->
  match sh with Some t => if shape_eqb t s then Ok tt else Raise ValueError | None => e end = Ok tt.
Proof. intros [->| ->] E; auto. rewrite shape_eqb_refl. reflexivity. Qed.

Lemma apply_zero sh (x : array K) : same_shape sh (ashape x) -> exists y, apply (zero_op sh) x = Ok y /\ elementwise (fun _ _ => r0) x y.
Proof.
  intros S. unfold apply, zero_op. cbn [d_shape d_class]. rewrite check_ok by auto. cbn [rbind]. eexists. split; [reflexivity|]. split; auto.
Qed.
Lemma apply_identity sh (x : array K) : same_shape sh (ashape x) -> apply (identity_op sh) x = Ok x.
Proof. intros S. unfold apply, identity_op. cbn [d_shape d_class]. rewrite check_ok by auto. reflexivity. Qed.
Lemma elementwise_id {A} (x : array A) f : (forall idx, inside (ashape x) idx -> f idx (aval x idx) = aval x idx) -> elementwise f x x.
Proof. intros H. split; auto. intros idx I. rewrite H; auto. Qed.
Lemma elementwise_ext {A B} (x : array A) (y : array B) f g : elementwise f x y ->
  (forall idx, inside (ashape x) idx -> f idx (aval x idx) = g idx (aval x idx)) -> elementwise g x y.
Proof. intros [E1 E2] H. split; auto. intros idx I. rewrite E2, H; auto. Qed.

Lemma apply_homothety (c : K) sh (x : array K) : same_shape sh (ashape x) ->
  exists y, apply (homothety c sh) x = Ok y /\ elementwise (fun _ v => rmul v c) x y.
Proof.
  intros S. unfold homothety. destruct (inspect [c]) as [[[[m z] o] other] same] eqn:E. apply inspect_sound in E.
  destruct (Nat.eqb_spec z 1) as [E1|N1].
  { destruct (apply_zero sh x S) as (y & -> & Y). exists y. split; auto. eapply elementwise_ext; [exact Y|]. intros idx I. cbv beta.
    rewrite (all_zero _ _ _ _ _ E E1 c) by (left; auto). ring. }
  destruct (Nat.eqb_spec o 1) as [E2|N2].
  { rewrite apply_identity by auto. exists x. split; auto. apply elementwise_id. intros idx I. rewrite (all_one _ _ _ _ _ E E2 c) by (left; auto). ring. }
  unfold apply. cbn [d_shape d_class]. rewrite check_ok by auto. cbn [rbind].
  destruct (direct_ok rmul (scalar c) Scalar x) as (y & Ey & Y); [exact I|]. exists y. split; auto.
Qed.

Lemma coefficient_nil {A} b (d : array A) idx : ashape d = [] -> coefficient b d idx = aval d [].
Proof. intros E. unfold coefficient, facing. rewrite E. destruct b; reflexivity. Qed.
(** a scalar is always broadcast *)
Definition scalarized (s : list nat) (b : bcast) : bcast := match s, b with [], Leftward | [], Rightward => Scalar | _, _ => b end.
Lemma scalarized_fits d b s : fits b d s -> fits (scalarized d b) d s.
Proof. destruct d, b; cbn; auto. Qed.
Lemma scalarized_coefficient {A} (d : array A) b idx : coefficient (scalarized (ashape d) b) d idx = coefficient b d idx.
Proof. destruct (ashape d) eqn:E; [|reflexivity]. rewrite !coefficient_nil by auto. reflexivity. Qed.

Lemma apply_mask m b sh (x : array K) : fits b (ashape m) (ashape x) -> same_shape sh (ashape x) ->
  exists y, apply (mask m b sh) x = Ok y /\ elementwise (fun idx v => if coefficient b m idx then r0 else v) x y.
Proof.
  intros F S0. unfold mask. set (sh' := match b with Disabled => Some (ashape m) | _ => sh end).
  assert (S : same_shape sh' (ashape x)). { unfold sh'. destruct b; auto. cbn in F. right. congruence. }
  destruct (inspect_bool (ravel m)) as [[[[n1 z] o] other] same] eqn:E. apply bool_sound in E as [B1 B2].
  assert (IN : forall idx, inside (ashape x) idx -> In (coefficient b m idx) (ravel m)) by (intros; eapply coefficient_in; eauto).
  destruct (Nat.eqb_spec z (length (ravel m))) as [E1|N1].
  { rewrite apply_identity by auto. exists x. split; auto. apply elementwise_id. intros idx I. rewrite (B1 E1 _ (IN idx I)). reflexivity. }
  destruct (Nat.eqb_spec o (length (ravel m))) as [E2|N2].
  { destruct (apply_zero sh' x S) as (y & -> & Y). exists y. split; auto. eapply elementwise_ext; [exact Y|]. intros idx I. cbv beta.
    rewrite (B2 E2 N1 _ (IN idx I)). reflexivity. }
  unfold apply. cbn [d_shape d_class]. rewrite check_ok by auto. cbn [rbind]. fold (scalarized (ashape m) b).
  destruct (direct_ok masking m (scalarized (ashape m) b) x) as (y & Ey & Y); [apply scalarized_fits; auto|]. exists y. split; auto.
  eapply elementwise_ext; [exact Y|]. intros idx I. cbv beta. rewrite scalarized_coefficient. reflexivity.
Qed.

Lemma apply_diagonal (data : array K) b (x : array K) : fits b (ashape data) (ashape x) ->
  exists y, apply (diagonal data b) x = Ok y /\ elementwise (fun idx v => rmul (coefficient b data idx) v) x y.
Proof.
  intros F. unfold diagonal. set (sh := match b with Disabled => Some (ashape data) | _ => None end).
  assert (S : same_shape sh (ashape x)) by (apply shape_of; auto).
  destruct (inspect (ravel data)) as [[[[m z] o] other] same] eqn:E. apply inspect_sound in E. destruct E as [P1 P2 P3 P4 P5].
  assert (IN : forall idx, inside (ashape x) idx -> In (coefficient b data idx) (ravel data)) by (intros; eapply coefficient_in; eauto).
  destruct (Nat.eqb_spec z (length (ravel data))) as [E1|N1].
  { destruct (apply_zero sh x S) as (y & -> & Y). exists y. split; auto. eapply elementwise_ext; [exact Y|]. intros idx I. cbv beta.
    rewrite (P2 E1 _ (IN idx I)). ring. }
  destruct (Nat.eqb_spec o (length (ravel data))) as [E2|N2].
  { rewrite apply_identity by auto. exists x. split; auto. apply elementwise_id. intros idx I. rewrite (P3 E2 _ (IN idx I)). ring. }
  destruct same.
  { destruct (P1 eq_refl) as (c & v' & Ev & HC). rewrite Ev.
    destruct (apply_homothety c sh x S) as (y & -> & Y). exists y. split; auto. eapply elementwise_ext; [exact Y|]. intros idx I. cbv beta.
    rewrite (HC _ (IN idx I)). ring. }
  destruct (Nat.eqb_spec (o + z) (length (ravel data))) as [E3|N3].
  { destruct (apply_mask (Arr (ashape data) (fun idx => deq (aval data idx) r0)) b sh x F S) as (y & -> & Y). exists y. split; auto.
    eapply elementwise_ext; [exact Y|]. intros idx I. cbv beta. specialize (P4 E3 _ (IN idx I)). unfold coefficient in *. cbn [ashape aval].
    destruct (deq (aval data (facing b (ashape data) idx)) r0) eqn:D0.
    - apply deq_true in D0. rewrite D0. ring.
    - apply deq_false in D0. destruct P4 as [P4|P4]; [congruence|]. rewrite P4. ring. }
  unfold apply. cbn [d_shape d_class]. fold (scalarized (ashape data) b). rewrite check_ok; auto.
  2:{ intros Sh. apply validatein_ok; [apply scalarized_fits; auto|]. unfold sh in Sh. destruct b; try discriminate; destruct (ashape data); cbn; congruence. }
  cbn [rbind].
  destruct (direct_ok rmul data (scalarized (ashape data) b) x) as (y & Ey & Y); [apply scalarized_fits; auto|]. exists y. split; auto.
  eapply elementwise_ext; [exact Y|]. intros idx I. cbv beta. rewrite scalarized_coefficient. ring.
Qed.

(** *** Rejection *)
Lemma bc_out d : forall s s', bc s d = Ok s' -> bc s' s = Ok s -> stretches d s.
Proof.
  induction d as [|n d IH]; intros s s' H1 H2; [exact I|]. destruct s as [|m s].
  { cbn in H1. injection H1 as <-. cbn in H2. discriminate. }
  cbn [bc] in H1. destruct (if Nat.eqb m n then Ok m else if Nat.eqb m 1 then Ok n else if Nat.eqb n 1 then Ok m else Raise ValueError) as [k|] eqn:E1; [|discriminate].
  cbn [rbind] in H1. destruct (bc s d) as [r|] eqn:E2; [|discriminate]. cbn [rbind] in H1. injection H1 as <-.
  cbn [bc] in H2. destruct (if Nat.eqb k m then Ok k else if Nat.eqb k 1 then Ok m else if Nat.eqb m 1 then Ok k else Raise ValueError) as [k'|] eqn:E3; [|discriminate].
  cbn [rbind] in H2. destruct (bc r s) as [r'|] eqn:E4; [|discriminate]. cbn [rbind] in H2. injection H2 as -> ->.
  split; [|eapply IH; eauto].
  destruct (Nat.eqb_spec m n) as [->|Nmn]; [auto|]. destruct (Nat.eqb_spec m 1) as [->|Nm].
  - injection E1 as ->. destruct (Nat.eqb_spec k 1); [auto|]. congruence.
  - destruct (Nat.eqb_spec n 1); [auto|discriminate].
Qed.
Lemma bc_error a b e : bc a b = Raise e -> e = ValueError.
Proof.
  revert b. induction a as [|n a IH]; intros [|m b]; cbn; try discriminate.
  destruct (Nat.eqb n m); [|destruct (Nat.eqb n 1); [|destruct (Nat.eqb m 1)]]; cbn; try congruence;
  destruct (bc a b) eqn:E; cbn; try discriminate; intros [= ->]; eauto.
Qed.
Lemma ufunc2_out_rejects {A B C} (f : A -> B -> C) (x : array A) (d : array B) : ~ stretches (rev (ashape d)) (rev (ashape x)) ->
  ufunc2_out f x d (ashape x) = Raise ValueError.
Proof.
  intros N. unfold ufunc2_out. destruct (bc (rev (ashape x)) (rev (ashape d))) as [s|e] eqn:E1; cbn [rbind]; [|apply bc_error in E1; congruence].
  destruct (bc s (rev (ashape x))) as [s'|e] eqn:E2; cbn [rbind]; [|apply bc_error in E2; congruence].
  unfold shape_eqb. destruct (list_eq_dec Nat.eq_dec s' (rev (ashape x))) as [->|]; auto. exfalso. eauto using bc_out.
Qed.
Lemma direct_rejects {A B} (f : A -> B -> A) (d : array B) b (x : array A) : b <> Disabled -> ~ fits b (ashape d) (ashape x) ->
  broadcast_direct f d b x = Raise ValueError.
Proof.
  intros ND N. destruct b; try congruence; cbn [broadcast_direct fits] in *; try (apply ufunc2_out_rejects; auto).
  change (rev (ashape x)) with (ashape (transpose x)). rewrite ufunc2_out_rejects; auto. cbn. rewrite !rev_involutive. auto.
Qed.
Lemma validatein_error d b s e : validatein d b s = Raise e -> e = ValueError.
Proof. unfold validatein. destruct (Nat.ltb _ _); [congruence|]. destruct (existsb _ _); congruence. Qed.

(** An operator that has kept its coefficients, or that does not broadcast, refuses the other shapes. *)
Lemma mask_rejects m b sh (x : array K) : ~ fits b (ashape m) (ashape x) ->
  (b = Disabled \/ exists m' b', d_class (mask (K := K) m b sh) = Mask m' b') -> apply (mask m b sh) x = Raise ValueError.
Proof.
  intros N H. destruct (list_eq_dec Nat.eq_dec (ashape m) (ashape x)) as [E|NE].
  { exfalso. apply N. rewrite E. destruct b; cbn; auto using stretches_refl. }
  assert (Neq : shape_eqb (ashape m) (ashape x) = false) by (unfold shape_eqb; destruct (list_eq_dec Nat.eq_dec (ashape m) (ashape x)); congruence).
  unfold mask in *. destruct (inspect_bool (ravel m)) as [[[[n1 z] o] other] same].
  destruct b; try (destruct H as [H|(m' & b' & H)]; [discriminate|]).
  3:{ destruct (Nat.eqb z _); [|destruct (Nat.eqb o _)]; unfold apply, identity_op, zero_op; cbn [d_shape]; rewrite Neq; reflexivity. }
  all: (destruct (Nat.eqb z _); [discriminate|]; destruct (Nat.eqb o _); [discriminate|]).
  all: (unfold apply; cbn [d_shape d_class]; destruct sh as [sh|]; [destruct (shape_eqb sh (ashape x)); [|reflexivity]|]; cbn [rbind]).
  all: match goal with |- mask_direct ?m ?b ?x = _ => change (mask_direct m b x) with (broadcast_direct masking m b x) end.
  all: (apply direct_rejects; [destruct (ashape m); congruence|]; destruct (ashape m); cbn in *; auto).
Qed.
Lemma diagonal_rejects (data : array K) b (x : array K) : ~ fits b (ashape data) (ashape x) ->
  (b = Disabled \/ (exists d' b', d_class (diagonal data b) = Diagonal d' b') \/ (exists m' b', d_class (diagonal data b) = Mask m' b')) ->
  apply (diagonal data b) x = Raise ValueError.
Proof.
  intros N H. destruct (list_eq_dec Nat.eq_dec (ashape data) (ashape x)) as [E|NE].
  { exfalso. apply N. rewrite E. destruct b; cbn; auto using stretches_refl. }
  assert (Neq : shape_eqb (ashape data) (ashape x) = false) by (unfold shape_eqb; destruct (list_eq_dec Nat.eq_dec (ashape data) (ashape x)); congruence).
  unfold diagonal in *. destruct (inspect (ravel data)) as [[[[n1 z] o] other] same].
  assert (HO : forall c sh, (exists d' b', d_class (homothety (K := K) c sh) = Diagonal d' b') \/ (exists m' b', d_class (homothety c sh) = Mask m' b') -> False).
  { intros c sh. unfold homothety. destruct (inspect [c]) as [[[[? z'] o'] ?] ?]. destruct (Nat.eqb z' 1); [|destruct (Nat.eqb o' 1)]; cbn;
    intros [(? & ? & E)|(? & ? & E)]; discriminate. }
  destruct b; try (destruct H as [H|H]; [discriminate|]).
  3:{ destruct (Nat.eqb z _); [unfold apply, zero_op; cbn [d_shape]; rewrite Neq; reflexivity|].
      destruct (Nat.eqb o _); [unfold apply, identity_op; cbn [d_shape]; rewrite Neq; reflexivity|].
      destruct same. { destruct (ravel data) as [|c v]; [unfold apply, zero_op; cbn [d_shape]; rewrite Neq; reflexivity|].
        unfold homothety. destruct (inspect [c]) as [[[[? z'] o'] ?] ?]. destruct (Nat.eqb z' 1); [|destruct (Nat.eqb o' 1)];
        unfold apply, identity_op, zero_op; cbn [d_shape]; rewrite Neq; reflexivity. }
      destruct (Nat.eqb (o + z) _). { apply mask_rejects; auto. }
      unfold apply; cbn [d_shape]; rewrite Neq; reflexivity. }
  all: (destruct (Nat.eqb z _); [exfalso; destruct H as [(? & ? & H)|(? & ? & H)]; discriminate|]).
  all: (destruct (Nat.eqb o _); [exfalso; destruct H as [(? & ? & H)|(? & ? & H)]; discriminate|]).
  all: (destruct same; [exfalso; destruct (ravel data); [destruct H as [(? & ? & H)|(? & ? & H)]; discriminate|eapply HO; eauto]|]).
  all: (destruct (Nat.eqb (o + z) _)).
  all: try (apply mask_rejects; [exact N|]; right; destruct H as [(? & ? & H)|H]; [exfalso|exact H]; unfold mask in H;
    destruct (inspect_bool _) as [[[[? ?] ?] ?] ?]; destruct (Nat.eqb _ _); [discriminate|]; destruct (Nat.eqb _ _); discriminate).
  all: (unfold apply; cbn [d_shape d_class]).
  all: match goal with |- rbind (validatein ?d ?b ?s) _ = _ => destruct (validatein d b s) eqn:E; [|apply validatein_error in E; rewrite E; reflexivity] end.
  all: cbn [rbind].
  all: match goal with |- diagonal_direct ?f ?m ?b ?x = _ => change (diagonal_direct f m b x) with (broadcast_direct f m b x) end.
  all: (apply direct_rejects; [destruct (ashape data); congruence|]; destruct (ashape data); cbn in *; auto).
Qed.

(** *** Flags *)
Lemma homothety_involutary (c : K) sh : d_inv (homothety c sh) = true -> c = r1 \/ c = ropp r1.
Proof.
  unfold homothety. destruct (inspect [c]) as [[[[m z] o] other] same] eqn:E. apply inspect_sound in E. destruct E as [P1 P2 P3 P4 P5].
  destruct (Nat.eqb_spec z 1); [discriminate|]. destruct (Nat.eqb_spec o 1) as [E2|N2].
  - intros _. left. apply P3; [exact E2|left; auto].
  - cbn [d_inv]. intros E%Nat.eqb_eq. apply P5; [exact E|left; auto].
Qed.
Lemma diagonal_involutary (data : array K) b : d_inv (diagonal data b) = true -> forall x, In x (ravel data) -> x = r1 \/ x = ropp r1.
Proof.
  unfold diagonal. destruct (inspect (ravel data)) as [[[[m z] o] other] same] eqn:E. apply inspect_sound in E. destruct E as [P1 P2 P3 P4 P5].
  destruct (Nat.eqb_spec z (length (ravel data))) as [E1|N1]; [discriminate|].
  destruct (Nat.eqb_spec o (length (ravel data))) as [E2|N2]. { intros _ x Hx. left. apply P3; auto. }
  destruct same. { destruct (P1 eq_refl) as (c & v' & Ev & HC). rewrite Ev in *. intros HI x Hx. rewrite (HC x Hx). eapply homothety_involutary; eauto. }
  destruct (Nat.eqb_spec (o + z) (length (ravel data))) as [E3|N3].
  { unfold mask. destruct (inspect_bool _) as [[[[? z'] o'] ?] ?] eqn:EB. apply bool_sound in EB as [B1 B2].
    destruct (Nat.eqb_spec z' (length (ravel (Arr (ashape data) (fun idx => deq (aval data idx) r0))))) as [E4|N4].
    - intros _ x Hx. destruct (P4 E3 x Hx) as [E0|]; auto. exfalso.
      assert (In (deq x r0) (ravel (Arr (ashape data) (fun idx => deq (aval data idx) r0)))) as HI.
      { unfold ravel in *. cbn [ashape aval]. apply in_map_iff in Hx as (idx & <- & Hidx). apply in_map_iff. exists idx. auto. }
      apply B1 in HI; auto. rewrite E0, deq_refl in HI. discriminate.
    - destruct (Nat.eqb o' _); cbn; discriminate. }
  cbn [d_inv]. intros E%Nat.eqb_eq. apply P5; auto.
Qed.
End Ops.
