(** Proofs about minima, maxima and products *)
From Verif Require Import Base BlockModel BlockSpec BlockProofs DiagModel DiagProofs RedModel RedProofs ExtrModel ExtrSpec.
From Coq Require Import Lia.
Set Implicit Arguments. Unset Strict Implicit.
Arguments order_total {A leb} _ a b.
Arguments order_trans {A leb} _ a b c _ _.

Section Best.
Context {A : Type} (better : A -> A -> bool).
Context (TO : total_order (fun a b => better b a)).
Let le (a b : A) := better b a = true.

Lemma pick_greatest (a b : A) : le a (if better b a then b else a) /\ le b (if better b a then b else a).
Proof.
  destruct (better b a) eqn:E.
  - split; [exact E|]. destruct (order_total TO b b); assumption.
  - split; [destruct (order_total TO a a); assumption|]. destruct (order_total TO a b) as [H|H]; [|exact H]. unfold le in *. cbv beta in H. congruence.
Qed.
Lemma pick_one (a b : A) : (if better b a then b else a) = a \/ (if better b a then b else a) = b.
Proof. destruct (better b a); auto. Qed.

(** Folding one more number *)
Lemma greatest_choose (skipna : bool) (P : option A -> Prop) (v w : option A) :
  greatest le skipna P v -> greatest le skipna (fun u => P u \/ u = w) ((if skipna then fchoose better else choose better) v w).
Proof.
  destruct v as [m|].
  - intros (M & G & N). destruct w as [k|].
    + assert (E : (if skipna then fchoose better else choose better) (Some m) (Some k) = Some (if better k m then k else m)) by (destruct skipna; reflexivity).
      rewrite E. cbn [greatest]. destruct (pick_greatest m k) as [P1 P2]. split; [|split].
      * destruct (pick_one m k) as [->| ->]; auto.
      * intros j [J|J]; [apply (order_trans TO) with (b := m); [exact (G j J)|exact P1]|]. injection J as ->. exact P2.
      * intros F [K|K]; [exact (N F K)|discriminate K].
    + destruct skipna; cbn [fchoose choose greatest].
      * split; [auto|]. split; [|discriminate]. intros j [J|J]; [now apply G|discriminate J].
      * now right.
  - destruct skipna.
    + cbn [greatest fchoose]. intros (N & H). destruct w as [k|].
      * cbn [greatest]. split; [now right|]. split; [|discriminate]. intros j [J|J]; [now destruct (H j)|]. injection J as ->.
        destruct (order_total TO k k); assumption.
      * cbn [greatest]. split; [now left|]. intros k [K|K]; [exact (H k K)|discriminate K].
    + cbn [greatest choose]. intros H. now left.
Qed.
Lemma greatest_ext (skipna : bool) (P Q : option A -> Prop) (v : option A) : (forall u, P u <-> Q u) -> greatest le skipna P v -> greatest le skipna Q v.
Proof.
  intros E. destruct v as [m|]; cbn [greatest].
  - intros (M & G & N). split; [now apply E|]. split; [intros k K; apply G; now apply E|]. intros F K. apply (N F). now apply E.
  - destruct skipna.
    + intros (M & H). split; [now apply E|]. intros k K. apply (H k). now apply E.
    + apply E.
Qed.
Lemma extremum_greatest (skipna : bool) (l : list (option A)) : l <> [] -> greatest le skipna (fun v => In v l) (r_fun (extremum better skipna) l).
Proof.
  destruct l as [|x l]; [intros H; now destruct H|]. intros _. unfold extremum. cbn [r_fun fold1].
  assert (G : forall l (P : option A -> Prop) v, greatest le skipna P v ->
    greatest le skipna (fun u => P u \/ In u l) (fold_left (if skipna then fchoose better else choose better) l v)).
  { clear x l. induction l as [|w l IH]; intros P v H; cbn [fold_left].
    - refine (greatest_ext _ H). intros u. cbn [In]. tauto.
    - refine (greatest_ext _ (IH _ _ (greatest_choose w H))). intros u. cbn [In]. intuition. }
  refine (greatest_ext _ (G l (fun u => u = x) x _)).
  - intros u. cbn [In]. intuition.
  - destruct x as [a|]; cbn [greatest].
    + split; [reflexivity|]. split; [|discriminate]. intros k K. injection K as ->. destruct (order_total TO a a); assumption.
    + destruct skipna; [split; [reflexivity|]|reflexivity]. discriminate.
Qed.
End Best.

Section Calls.
Context {A : Type}.
Implicit Types (x y : array (num A)) (f : reducer A).

Lemma inside_indices (s idx : list nat) : In idx (indices s) <-> inside s idx.
Proof.
  revert idx. induction s as [|n s IH]; intros idx; cbn [indices].
  - split; [intros [<-|[]]; constructor|]. intros H. inversion H. now left.
  - rewrite in_flat_map. split.
    + intros (i & I & J). apply in_map_iff in J. destruct J as (t & <- & T). apply in_seq in I. constructor; [lia|now apply IH].
    + intros H. inversion H as [|? i ? t I T]; subst. exists i. split; [apply in_seq; lia|]. apply in_map. now apply IH.
Qed.
Lemma ravel_element x v : In v (ravel x) <-> element x v.
Proof.
  unfold ravel, element. rewrite in_map_iff. split; intros (i & I & J); exists i; [|].
  - apply inside_indices in J. auto.
  - split; [auto|]. now apply inside_indices.
Qed.
Lemma prod_zero (s : list nat) : prod s = 0 <-> In 0 s.
Proof.
  induction s as [|n s IH]; cbn [In].
  - split; [discriminate|intros []].
  - rewrite prod_cons. destruct n as [|n]; [split; auto|]. destruct (Nat.eq_dec (prod s) 0) as [E|E]; [rewrite E|]; split; intros H.
    + right. now apply IH.
    + lia.
    + lia.
    + destruct H as [H|H]; [discriminate H|]. apply IH in H. contradiction.
Qed.
Lemma ravel_empty x : prod (ashape x) = 0 <-> ravel x = [].
Proof.
  unfold ravel. rewrite (indices_unflat (ashape x)), map_map. split.
  - intros ->. reflexivity.
  - intros E. apply (f_equal (@length _)) in E. now rewrite map_length, seq_length in E.
Qed.

(** Whether numpy finds something to reduce, or does not need to *)
Definition reducible f (axis : option Z) x : Prop :=
  r_identity f = true \/ prod (ashape x) <> 0 \/
  exists z a, axis = Some z /\ position (Axis z) (length (ashape x)) = Some a /\ prod (remove_at a (ashape x)) = 0.
Lemma call_axis f (z : Z) (a : nat) x : position (Axis z) (length (ashape x)) = Some a ->
  reduction_call f (Some z) x =
  if Nat.eqb (prod (ashape x)) 0 && negb (Nat.eqb (prod (remove_at a (ashape x))) 0) && negb (r_identity f) then Raise ValueError
  else Ok (Arr (remove_at a (ashape x)) (fun idx => r_fun f (map (fun i => aval x (insert a i idx)) (seq 0 (nth a (ashape x) 0))))).
Proof.
  intros P. unfold reduction_call. rewrite (validate_position z _ a P). cbn [rbind]. unfold np_reduce.
  rewrite (proj2 (axis_of_position z _ a) P). cbn [rbind ashape]. fold (remove_at a (ashape x)).
  destruct (_ && _ && _); cbn [rbind]; [reflexivity|].
  rewrite (reshapein_position z _ a P). cbn [ashape]. now rewrite shape_eqb_refl.
Qed.
Lemma call_all f x : ashape x <> [] -> reduction_call f None x =
  if Nat.eqb (prod (ashape x)) 0 && negb (r_identity f) then Raise ValueError else Ok (Arr [] (fun _ => r_fun f (ravel x))).
Proof.
  intros N. unfold reduction_call, red_validatein. destruct (Nat.eqb_spec (length (ashape x)) 0) as [L|_]; [now apply length_zero_iff_nil in L|].
  cbn [rbind np_reduce ashape]. change (prod []) with 1. cbn [Nat.eqb negb]. rewrite andb_true_r.
  destruct (_ && _); reflexivity.
Qed.
Lemma call_rejects f (z : Z) x : position (Axis z) (length (ashape x)) = None -> exists e, reduction_call f (Some z) x = Raise e.
Proof.
  intros P. unfold reduction_call. destruct (red_validatein (Some z) (ashape x)) as [u|e]; [|eexists; reflexivity]. cbn [rbind]. unfold np_reduce.
  destruct (axis_of z (length (ashape x))) as [a|e] eqn:E; [|eexists; reflexivity]. apply axis_of_position in E. congruence.
Qed.
Lemma remove_zero (a : nat) (s : list nat) : a < length s -> nth a s 0 = 0 -> prod s = 0.
Proof. intros L E. apply prod_zero. rewrite <- E. now apply nth_In. Qed.
Lemma position_lt (z : Z) (n a : nat) : position (Axis z) n = Some a -> a < n.
Proof. intros P. apply position_cases in P. lia. Qed.
Lemma prod_remove (a : nat) (s : list nat) : a < length s -> prod s = nth a s 0 * prod (remove_at a s).
Proof.
  revert a. induction s as [|n s IH]; intros a L; [cbn in L; lia|]. destruct a as [|a].
  - reflexivity.
  - cbn [length] in L. change (nth (S a) (n :: s) 0) with (nth a s 0). change (remove_at (S a) (n :: s)) with (n :: remove_at a s).
    rewrite !prod_cons, (IH a) by lia. lia.
Qed.
Lemma inside_nonempty (s idx : list nat) : inside s idx -> prod s <> 0.
Proof. intros H. induction H as [|n i s idx I H IH]; [discriminate|]. rewrite prod_cons. nia. Qed.

(** ** Extrema *)
Lemma extremum_axis (better : A -> A -> bool) (skipna : bool) (z : Z) (a : nat) x : total_order (fun a b => better b a) ->
  position (Axis z) (length (ashape x)) = Some a -> nth a (ashape x) 0 <> 0 ->
  exists y, reduction_call (extremum better skipna) (Some z) x = Ok y /\ ashape y = remove_at a (ashape x) /\
  forall idx, inside (ashape y) idx -> greatest (fun a b => better b a = true) skipna (along x a idx) (aval y idx).
Proof.
  intros TO P N. rewrite (call_axis _ P). assert (L := position_lt P). rewrite (prod_remove L).
  assert (E : Nat.eqb (nth a (ashape x) 0 * prod (remove_at a (ashape x))) 0 && negb (Nat.eqb (prod (remove_at a (ashape x))) 0) = false).
  { destruct (Nat.eqb_spec (prod (remove_at a (ashape x))) 0) as [_|Q]; [apply andb_false_r|].
    rewrite (proj2 (Nat.eqb_neq _ _)) by nia. reflexivity. }
  rewrite E. cbn [andb]. eexists. split; [reflexivity|]. split; [reflexivity|]. intros idx I. cbn [aval].
  refine (greatest_ext _ (extremum_greatest TO skipna _)).
  - intros u. rewrite in_map_iff. unfold along. split.
    + intros (i & U & S). apply in_seq in S. exists i. split; [lia|auto].
    + intros (i & S & U). exists i. split; [auto|]. apply in_seq. lia.
  - destruct (nth a (ashape x) 0); [now destruct N|discriminate].
Qed.
Lemma extremum_all (better : A -> A -> bool) (skipna : bool) x : total_order (fun a b => better b a) ->
  ashape x <> [] -> prod (ashape x) <> 0 ->
  exists y, reduction_call (extremum better skipna) None x = Ok y /\ ashape y = [] /\
  greatest (fun a b => better b a = true) skipna (element x) (aval y []).
Proof.
  intros TO N Z. rewrite (call_all _ N). rewrite (proj2 (Nat.eqb_neq _ _) Z). cbn [andb]. eexists. split; [reflexivity|]. split; [reflexivity|].
  cbn [aval]. refine (greatest_ext _ (extremum_greatest TO skipna _)).
  - apply ravel_element.
  - intros E. apply ravel_empty in E. contradiction.
Qed.
Lemma extremum_empty (better : A -> A -> bool) (skipna : bool) (z : Z) (a : nat) x : position (Axis z) (length (ashape x)) = Some a ->
  nth a (ashape x) 0 = 0 -> ~ In 0 (remove_at a (ashape x)) -> reduction_call (extremum better skipna) (Some z) x = Raise ValueError.
Proof.
  intros P Z N. rewrite (call_axis _ P), (remove_zero (position_lt P) Z). rewrite (proj2 (Nat.eqb_neq (prod (remove_at a (ashape x))) 0)); [reflexivity|].
  intros E. apply N. now apply prod_zero.
Qed.
Lemma extremum_empty_all (better : A -> A -> bool) (skipna : bool) x : In 0 (ashape x) -> reduction_call (extremum better skipna) None x = Raise ValueError.
Proof.
  intros Z. rewrite call_all by (intros E; rewrite E in Z; destruct Z). apply prod_zero in Z. rewrite Z. reflexivity.
Qed.

(** ** Products *)
Lemma product_nan (op : A -> A -> A) (l : list (num A)) : fold_left (fun (u v : num A) => match u, v with Some a, Some b => Some (op a b) | _, _ => None end) l None = None.
Proof. induction l as [|v l IH]; cbn [fold_left]; [reflexivity|exact IH]. Qed.
Lemma ufunc_reduce_spec (op : A -> A -> A) (one : A) (l : list (num A)) :
  (In None l -> r_fun (ufunc_reduce op one) l = None) /\ (~ In None l -> r_fun (ufunc_reduce op one) l = Some (product_without_nan op one l)).
Proof.
  unfold ufunc_reduce, product_without_nan. cbn [r_fun]. revert one. induction l as [|x l IH]; intros one; cbn [fold_left In]; [tauto|].
  destruct x as [a|].
  - destruct (IH (op one a)) as [I1 I2]. split.
    + intros [H|H]; [discriminate H|]. now apply I1.
    + intros H. apply I2. intros K. apply H. now right.
  - split; [intros _; apply product_nan|]. intros H. destruct H. now left.
Qed.
Lemma reduce_axis (op : A -> A -> A) (one : A) (z : Z) (a : nat) x : position (Axis z) (length (ashape x)) = Some a ->
  exists y, reduction_call (ufunc_reduce op one) (Some z) x = Ok y /\ ashape y = remove_at a (ashape x) /\
  forall idx, inside (ashape y) idx -> let l := map (fun i => aval x (insert a i idx)) (seq 0 (nth a (ashape x) 0)) in
    (along x a idx None -> aval y idx = None) /\ (~ along x a idx None -> aval y idx = Some (product_without_nan op one l)).
Proof.
  intros P. rewrite (call_axis _ P). change (r_identity (ufunc_reduce op one)) with true. cbn [negb]. rewrite andb_false_r. eexists. split; [reflexivity|]. split; [reflexivity|].
  intros idx I. cbn [aval]. set (l := map _ _). assert (E : along x a idx None <-> In None l).
  { unfold along, l. rewrite in_map_iff. split.
    - intros (i & S & U). exists i. split; [auto|]. apply in_seq. lia.
    - intros (i & U & S). apply in_seq in S. exists i. split; [lia|auto]. }
  rewrite E. apply ufunc_reduce_spec.
Qed.
Lemma nan_axis (op : A -> A -> A) (one : A) (z : Z) (a : nat) x : position (Axis z) (length (ashape x)) = Some a ->
  exists y, reduction_call (nan_reduce op one) (Some z) x = Ok y /\ ashape y = remove_at a (ashape x) /\
  forall idx, inside (ashape y) idx ->
    aval y idx = Some (product_without_nan op one (map (fun i => aval x (insert a i idx)) (seq 0 (nth a (ashape x) 0)))).
Proof.
  intros P. rewrite (call_axis _ P). change (r_identity (nan_reduce op one)) with true. cbn [negb]. rewrite andb_false_r. eexists.
  split; [reflexivity|]. split; [reflexivity|]. reflexivity.
Qed.
End Calls.

(** ** Minimum and maximum together *)
Section Minmax.
Context {A : Type} (leb : A -> A -> bool).
Context (TO : total_order leb).
Lemma flipped : total_order (fun a b => leb b a).
Proof. split; [intros a b; destruct (order_total TO a b); auto|]. intros a b c H1 H2. exact (order_trans TO c b a H2 H1). Qed.

Lemma nth_repeat1 (n k : nat) : k < n -> offset (repeat 1 n) k = k.
Proof.
  unfold offset. revert k. induction n as [|n IH]; intros k L; [lia|]. destruct k as [|k]; [reflexivity|].
  cbn [repeat firstn list_sum fold_right]. change (fold_right Nat.add 0 (firstn k (repeat 1 n))) with (list_sum (firstn k (repeat 1 n))).
  rewrite IH by lia. reflexivity.
Qed.
Lemma nth_insert (b v : nat) (s : list nat) : b <= length s -> nth b (insert b v s) 0 = v.
Proof. intros L. unfold insert. rewrite app_nth2; rewrite firstn_length_le by exact L; [|lia]. now rewrite Nat.sub_diag. Qed.
Lemma remove_insert (T : Type) (b : nat) (v : T) (s : list T) : b <= length s -> remove_at b (insert b v s) = s.
Proof.
  intros L. unfold remove_at, insert. assert (E : length (firstn b s) = b) by (now apply firstn_length_le).
  rewrite firstn_app, E, Nat.sub_diag. cbn [firstn]. rewrite app_nil_r, firstn_firstn, Nat.min_id.
  rewrite skipn_app, E. rewrite skipn_all2 by lia. replace (S b - b) with 1 by lia. cbn [skipn app]. apply firstn_skipn.
Qed.

Lemma minmax_column (axis : option Z) (skipna : bool) (zo : Z) (b : nat) (x out mi ma : array (num A)) :
  min_call leb skipna axis x = Ok mi -> max_call leb skipna axis x = Ok ma -> ashape ma = ashape mi ->
  position (NewAxis zo) (S (length (ashape mi))) = Some b -> ashape out = insert b 2 (ashape mi) ->
  exists r, minmax_direct leb axis skipna zo x out = Ok r /\ ashape r = ashape out /\
  forall idx, inside (ashape mi) idx -> aval r (insert b 0 idx) = aval mi idx /\ aval r (insert b 1 idx) = aval ma idx.
Proof.
  intros Hmi Hma Sh P So. assert (Lb : b <= length (ashape mi)).
  { unfold position in P. cbv zeta in P. remember (if (0 <=? axis_value (NewAxis zo))%Z then _ else _) as i eqn:I in P. clear I.
    destruct (_ && _)%bool eqn:E in P; [|discriminate P]. injection P as <-. apply andb_prop in E. destruct E as [E1 E2].
    apply Z.leb_le in E1. apply Z.ltb_lt in E2. lia. }
  assert (Lo : length (ashape out) = S (length (ashape mi))).
  { rewrite So. unfold insert. rewrite app_length, firstn_length_le by exact Lb. cbn [length]. rewrite skipn_length. lia. }
  destruct (column_spec [reduction_block (min_call leb skipna axis) axis; reduction_block (max_call leb skipna axis) axis] [1; 1] (NewAxis zo) b x out)
    as (r & R & Sr & V).
  - reflexivity.
  - split; [now rewrite Lo|]. rewrite So, nth_insert by exact Lb. reflexivity.
  - intros k c Hc. unfold piece. cbn [cut ashape]. rewrite So, remove_insert by exact Lb.
    destruct k as [|[|k]]; cbn [nth_error] in Hc; [| |destruct k; discriminate Hc]; injection Hc as <-; cbn [reduction_block k_fun].
    + now rewrite Hmi.
    + rewrite Hma. exact Sh.
  - exists r. split; [exact R|]. split; [exact Sr|]. intros idx I.
    destruct (V 0 _ eq_refl) as [V0s V0]. destruct (V 1 _ eq_refl) as [V1s V1].
    assert (Q : forall k, ashape (piece (NewAxis zo) b [1; 1] k r) = ashape mi).
    { intros k. unfold piece. cbn [cut ashape]. rewrite Sr, So. now apply remove_insert. }
    specialize (V0 idx). rewrite Q in V0. specialize (V0 I). specialize (V1 idx). rewrite Q in V1. specialize (V1 I).
    cbn [reduction_block k_fun] in V0, V1. rewrite Hmi in V0. rewrite Hma in V1. split; [exact V0|exact V1].
Qed.
End Minmax.

(** Examples: arrays given by their elements in the C order *)
Definition arr (s : list nat) (l : list (num Z)) : array (num Z) := Arr s (fun idx => nth (flat s idx) l None).
Definition shown (r : result (array (num Z))) : option (list nat * list (num Z)) := match r with Ok y => Some (ashape y, ravel y) | Raise _ => None end.
Definition table : array (num Z) := arr [2; 3] [Some 4; Some 1; None; Some (-2); Some 7; Some 3]%Z.
Lemma Zleb_order : total_order Z.leb.
Proof. split; [intros a b; rewrite !Z.leb_le; lia|intros a b c; rewrite !Z.leb_le; lia]. Qed.
(** Sums of numbers and of arrays with NaN *)
Definition plus_nan (u v : num Z) : num Z := match u, v with Some a, Some b => Some (a + b)%Z | _, _ => None end.
Definition added (x y : array (num Z)) : array (num Z) := Arr (ashape x) (fun idx => plus_nan (aval x idx) (aval y idx)).
Lemma sum_nan_counterexample :
  ~ (forall (x y : array (num Z)) a b c, ashape x = [1] -> ashape y = [1] ->
     sum_call Z.add 0%Z true None x = Ok a -> sum_call Z.add 0%Z true None y = Ok b -> sum_call Z.add 0%Z true None (added x y) = Ok c ->
     aval c [] = plus_nan (aval a []) (aval b [])).
Proof. intros H. specialize (H (arr [1] [None]) (arr [1] [Some 1%Z]) _ _ _ eq_refl eq_refl eq_refl eq_refl eq_refl). vm_compute in H. discriminate H. Qed.
Lemma product_nan_counterexample :
  ~ (forall z (x : array (num Z)) a, position (Axis z) (length (ashape x)) = Some a ->
     exists y, product_call Z.mul 1%Z true (Some z) x = Ok y /\
     forall idx, inside (ashape y) idx ->
       aval y idx = Some (product_without_nan Z.mul 1%Z (map (fun i => aval x (insert a i idx)) (seq 0 (nth a (ashape x) 0))))).
Proof.
  intros H. destruct (H 0%Z (arr [2] [Some 2%Z; None]) 0 eq_refl) as (y & E & V). vm_compute in E. injection E as <-.
  specialize (V [] ltac:(constructor)). vm_compute in V. discriminate V.
Qed.
Lemma construct_ok (A : Type) (g : func (A := A)) : is_ok (construct g) = true <->
  match g with Ufunc nin nout _ => nin = 2 /\ nout = 1 | Function has_axis _ => has_axis = true | Other => False end.
Proof.
  destruct g as [nin nout f|h f|]; cbn [construct].
  - destruct (Nat.eqb_spec nin 2) as [->|N]; cbn [negb].
    + destruct (Nat.eqb_spec nout 1) as [->|N]; cbn [negb is_ok]; split; try tauto; try discriminate; intros [_ H]; congruence.
    + cbn [is_ok]. split; [discriminate|]. intros [H _]. congruence.
  - destruct h; cbn [is_ok]; split; congruence.
  - split; [discriminate|intros []].
Qed.
Lemma call_shape (A : Type) (f g : reducer A) (axis : option Z) (x y1 y2 : array (num A)) :
  reduction_call f axis x = Ok y1 -> reduction_call g axis x = Ok y2 -> ashape y2 = ashape y1.
Proof.
  unfold reduction_call. destruct (red_validatein axis (ashape x)) as [u|e]; [|discriminate]. cbn [rbind].
  destruct (np_reduce f axis x) as [u1|e]; [|discriminate]. destruct (np_reduce g axis x) as [u2|e]; [|discriminate]. cbn [rbind].
  set (s := match axis with None => [] | Some z => red_reshapein z (ashape x) end). unfold shape_eqb.
  destruct (list_eq_dec Nat.eq_dec (ashape u1) s) as [E1|]; [|discriminate]. destruct (list_eq_dec Nat.eq_dec (ashape u2) s) as [E2|]; [|discriminate].
  intros H1 H2. injection H1 as <-. injection H2 as <-. congruence.
Qed.
Lemma same_shapes (A : Type) (leb : A -> A -> bool) (skipna : bool) (axis : option Z) (x mi ma : array (num A)) :
  min_call leb skipna axis x = Ok mi -> max_call leb skipna axis x = Ok ma -> ashape ma = ashape mi.
Proof. apply call_shape. Qed.
