(** Proofs about least_greater_multiple. *)
From Verif Require Import Base LgmModel LgmSpec.
Local Open Scope Z_scope.

(** ** The grid *)
Inductive grid (p : Z -> nat) : list Z -> Z -> Prop :=
| g_nil : grid p [] 1
| g_cons v l k x : (k <= p v)%nat -> grid p l x -> grid p (v :: l) (v ^ Z.of_nat k * x).

Lemma grid_powers p l x : grid p l x -> product_of_powers l x.
Proof. induction 1; [constructor|apply pp_cons; [lia|assumption]]. Qed.

Lemma products_grid p l : forall c y, In y (products (fun x => x) l (map p l) c) <-> exists x, grid p l x /\ y = c * x.
Proof.
  induction l as [|v l IH]; intros c y; cbn [products map].
  - split.
    + intros [<-|[]]. exists 1. split; [constructor|lia].
    + intros (x & G & ->). inversion G; subst. left. lia.
  - rewrite in_flat_map. split.
    + intros (k & Hk & Hy). apply in_seq in Hk. apply IH in Hy. destruct Hy as (x & G & ->).
      exists (v ^ Z.of_nat k * x). split; [apply g_cons; [lia|exact G]|ring].
    + intros (x & G & ->). inversion G as [|v' l' k x' Hk G' E1 E2]; subst. exists k. split; [apply in_seq; lia|].
      apply IH. exists x'. split; [exact G'|ring].
Qed.

Lemma powers_pos l x : Forall (fun v => 2 <= v) l -> product_of_powers l x -> 1 <= x.
Proof.
  intros F H. induction H as [|v l k x Hk H IH]; [lia|]. inversion F; subst.
  assert (0 < v ^ k) by (apply Z.pow_pos_nonneg; lia). specialize (IH ltac:(assumption)). nia.
Qed.
Lemma grid_pos p l x : Forall (fun v => 2 <= v) l -> grid p l x -> 1 <= x.
Proof. intros F G. exact (powers_pos _ _ F (grid_powers _ _ _ G)). Qed.
Lemma grid_one p l : grid p l 1.
Proof.
  induction l as [|v l IH]; [constructor|]. replace 1 with (v ^ Z.of_nat 0 * 1) by (cbn; lia). apply g_cons; [lia|exact IH].
Qed.
(** A single power, and the other exponents 0 *)
Lemma grid_single p l v : In v l -> grid p l (v ^ Z.of_nat (p v)).
Proof.
  induction l as [|w l IH]; intros H; [contradiction|]. destruct H as [->|H].
  - rewrite <- (Z.mul_1_r (v ^ Z.of_nat (p v))). apply g_cons; [lia|apply grid_one].
  - rewrite <- (Z.mul_1_l (v ^ Z.of_nat (p v))). change 1 with (w ^ Z.of_nat 0). apply g_cons; [lia|exact (IH H)].
Qed.

(** A product of powers is in the grid, or is larger than one of the largest powers. *)
Lemma powers_grid p l x : Forall (fun v => 2 <= v) l -> product_of_powers l x ->
  grid p l x \/ exists v, In v l /\ v ^ Z.of_nat (p v) <= x.
Proof.
  intros F H. induction H as [|v l k x Hk H IH]; [left; constructor|]. inversion F as [|? ? Hv F']; subst.
  assert (P : 1 <= x) by exact (powers_pos _ _ F' H).
  destruct (Z_le_gt_dec k (Z.of_nat (p v))) as [L|G].
  - destruct (IH F') as [Gr|(w & Hw & Lw)].
    + left. rewrite <- (Z2Nat.id k) by lia. apply g_cons; [lia|exact Gr].
    + right. exists w. split; [right; exact Hw|]. assert (0 < v ^ k) by (apply Z.pow_pos_nonneg; lia). nia.
  - right. exists v. split; [left; reflexivity|].
    assert (v ^ Z.of_nat (p v) <= v ^ k) by (apply Z.pow_le_mono_r; lia).
    assert (0 < v ^ Z.of_nat (p v)) by (apply Z.pow_pos_nonneg; lia). nia.
Qed.

(** ** The minimum *)
Lemma minimum_Some l x : minimum l = Some x -> In x l /\ forall y, In y l -> x <= y.
Proof.
  revert x. induction l as [|a l IH]; intros x H; [discriminate|]. cbn in H. destruct (minimum l) as [b|] eqn:E.
  - injection H as <-. destruct (IH _ eq_refl) as (I & L). split.
    + destruct (Z.min_spec a b) as [[_ ->]|[_ ->]]; [left; reflexivity|right; exact I].
    + intros y [<-|Hy]; [lia|]. specialize (L y Hy). lia.
  - injection H as <-. destruct l as [|b l]; [|cbn in E; destruct (minimum l); discriminate].
    split; [left; reflexivity|]. intros y [<-|[]]. lia.
Qed.
Lemma minimum_None l : minimum l = None -> l = [].
Proof. destruct l as [|a l]; [reflexivity|]. cbn. destruct (minimum l); discriminate. Qed.

Lemma fold_max_le l : forall x y, x <= fold_left Z.max l x /\ (In y l -> y <= fold_left Z.max l x).
Proof.
  induction l as [|a l IH]; intros x y; cbn [fold_left]; [split; [lia|intros []]|].
  destruct (IH (Z.max x a) y) as (A & B). split; [lia|]. intros [<-|H]; [lia|exact (B H)].
Qed.

Lemma rmap_ok {A B} (f : A -> result B) (g : A -> B) l : (forall a, In a l -> f a = Ok (g a)) -> rmap f l = Ok (map g l).
Proof.
  induction l as [|a l IH]; intros H; [reflexivity|]. cbn. rewrite (H a) by (left; reflexivity). cbn.
  rewrite IH by (intros b Hb; apply H; right; exact Hb). reflexivity.
Qed.

Lemma existsb_neg l : Forall (fun v => 2 <= v) l -> existsb (fun v => v <=? 0) l = false.
Proof. induction 1 as [|v l Hv _ IH]; [reflexivity|]. cbn. rewrite IH. destruct (Z.leb_spec v 0); [lia|reflexivity]. Qed.

Lemma powers_ok power m l : 1 <= m -> Forall (fun v => 2 <= v) l -> rmap (max_power power m) l = Ok (map (fun v => power v m) l).
Proof.
  intros Hm F. apply rmap_ok. intros v Hv. rewrite Forall_forall in F. specialize (F v Hv). unfold max_power.
  destruct (Z.ltb_spec m 0); [lia|]. destruct (Z.eqb_spec m 0); [lia|]. destruct (Z.eqb_spec v 1); [lia|reflexivity].
Qed.

(** ** The result is the least *)
Section Least.
Context (power : Z -> Z -> nat) (factors : list Z).
Hypothesis Hp : rounds_up power.
Hypothesis Hf : Forall (fun v => 2 <= v) factors.
Hypothesis Hne : factors <> [].

Definition found (values : list Z) (v : Z) : Z := match minimum (filter (fun x => negb (x <? v)) values) with Some x => x | None => 0 end.

Lemma found_least m a : 1 <= m -> a <= m -> least_multiple factors a (found (products (fun x => x) factors (map (fun v => power v m) factors) 1) a).
Proof.
  intros Hm Ha. set (p := fun v => power v m).
  assert (M : forall y, In y (products (fun x => x) factors (map p factors) 1) <-> grid p factors y).
  { intros y. rewrite products_grid. split; [intros (x & G & ->); now rewrite Z.mul_1_l|intros G; exists y; split; [exact G|lia]]. }
  assert (B : forall v, In v factors -> a <= v ^ Z.of_nat (p v)).
  { intros v Hv. assert (2 <= v) by (revert v Hv; apply Forall_forall; exact Hf). specialize (Hp v m ltac:(assumption) Hm). unfold p. lia. }
  assert (S : forall y, In y (filter (fun x => negb (x <? a)) (products (fun x => x) factors (map p factors) 1)) <-> grid p factors y /\ a <= y).
  { intros y. rewrite filter_In, M. destruct (Z.ltb_spec y a); cbn; intuition (try lia; try discriminate). }
  unfold found. destruct (minimum _) as [r|] eqn:E.
  - apply minimum_Some in E. destruct E as (I & L). apply S in I. destruct I as (G & Ia). split; [exact (grid_powers _ _ _ G)|]. split; [exact Ia|].
    intros x Hx Hax. destruct (powers_grid p _ _ Hf Hx) as [Gx|(v & Hv & Lv)].
    + apply L, S. split; assumption.
    + apply Z.le_trans with (v ^ Z.of_nat (p v)); [|exact Lv]. apply L, S. split; [apply grid_single; exact Hv|exact (B v Hv)].
  - apply minimum_None in E. destruct factors as [|v l] eqn:F; [congruence|]. exfalso.
    assert (H : In (v ^ Z.of_nat (p v)) []); [|exact H]. rewrite <- E. apply S. split; [apply grid_single; left; reflexivity|apply B; left; reflexivity].
Qed.

Lemma lgm_found wrap (a : list Z) : (exists x, In x a /\ 1 <= x) ->
  exists m, 1 <= m /\ (In m a /\ forall x, In x a -> x <= m) /\
    least_greater_multiple false wrap power a factors = Ok (map (found (products wrap factors (map (fun v => power v m) factors) 1)) a).
Proof.
  intros (x & Hx & H1). destruct a as [|y a]; [contradiction|]. exists (fold_left Z.max a y).
  assert (Mx : forall z, In z (y :: a) -> z <= fold_left Z.max a y) by (intros z Hz; destruct (fold_max_le a y z) as (A & B); destruct Hz as [<-|Hz]; [exact A|exact (B Hz)]).
  assert (In (fold_left Z.max a y) (y :: a)).
  { clear. revert y. induction a as [|b a IH]; intros y; cbn [fold_left]; [left; reflexivity|].
    destruct (IH (Z.max y b)) as [E|E]; [|right; right; exact E]. rewrite <- E. destruct (Z.max_spec y b) as [[_ ->]|[_ ->]]; [right; left|left]; reflexivity. }
  split; [specialize (Mx x Hx); lia|]. split; [split; assumption|].
  unfold least_greater_multiple. rewrite (existsb_neg _ Hf). rewrite powers_ok by (try assumption; specialize (Mx x Hx); lia). cbn [rbind].
  apply rmap_ok. intros z _. reflexivity.
Qed.
End Least.

Lemma Forall2_map {A B} (P : A -> B -> Prop) (f : A -> B) l : (forall a, In a l -> P a (f a)) -> Forall2 P l (map f l).
Proof.
  induction l as [|a l IH]; intros H; cbn; [constructor|]. constructor; [apply H; left; reflexivity|]. apply IH. intros b Hb. apply H. right. exact Hb.
Qed.

Lemma lgm_least power factors a : rounds_up power -> Forall (fun v => 2 <= v) factors -> factors <> [] -> (exists x, In x a /\ 1 <= x) ->
  exists r, least_greater_multiple false (fun x => x) power a factors = Ok r /\ Forall2 (least_multiple factors) a r.
Proof.
  intros Hp Hf Hn Hx. destruct (lgm_found power factors Hf (fun x => x) a Hx) as (m & Hm & (_ & Mx) & E).
  eexists. split; [exact E|]. apply Forall2_map. intros y Hy. apply found_least; auto.
Qed.

(** ** Machine integers *)
Lemma int64_id x : 0 <= x < 2 ^ 63 -> int64 x = x.
Proof. intros H. unfold int64. rewrite Z.mod_small by lia. lia. Qed.

Lemma largest_pos l p : Forall (fun v => 2 <= v) l -> 1 <= largest l p.
Proof.
  induction 1 as [|v l Hv _ IH]; cbn; [lia|]. assert (0 < v ^ Z.of_nat (p v)) by (apply Z.pow_pos_nonneg; lia). nia.
Qed.

Lemma products_int64 p l : Forall (fun v => 2 <= v) l -> forall c, 1 <= c -> c * largest l p < 2 ^ 63 ->
  products int64 l (map p l) c = products (fun x => x) l (map p l) c.
Proof.
  induction 1 as [|v l Hv F IH]; intros c Hc H; cbn [products map largest] in *; [reflexivity|].
  assert (L : 1 <= largest l p) by (apply largest_pos; assumption).
  rewrite !flat_map_concat_map. f_equal. apply map_ext_in. intros k Hk. apply in_seq in Hk.
  assert (A : 0 < v ^ Z.of_nat k) by (apply Z.pow_pos_nonneg; lia).
  assert (B : v ^ Z.of_nat k <= v ^ Z.of_nat (p v)) by (apply Z.pow_le_mono_r; lia).
  assert (C : c * v ^ Z.of_nat k * largest l p <= c * (v ^ Z.of_nat (p v) * largest l p)).
  { rewrite <- Z.mul_assoc. apply Z.mul_le_mono_nonneg_l; [lia|]. apply Z.mul_le_mono_nonneg_r; lia. }
  assert (D : 1 <= c * v ^ Z.of_nat k) by nia.
  assert (E : c * v ^ Z.of_nat k <= c * v ^ Z.of_nat k * largest l p) by nia.
  rewrite (int64_id (v ^ Z.of_nat k)) by nia. rewrite (int64_id (c * v ^ Z.of_nat k)) by lia.
  apply IH; lia.
Qed.

Lemma lgm_int64 power factors a : rounds_up power -> Forall (fun v => 2 <= v) factors -> factors <> [] -> (exists x, In x a /\ 1 <= x) ->
  (forall m, In m a -> largest factors (fun v => power v m) < 2 ^ 63) ->
  exists r, least_greater_multiple false int64 power a factors = Ok r /\ Forall2 (least_multiple factors) a r.
Proof.
  intros Hp Hf Hn Hx Hl. destruct (lgm_found power factors Hf int64 a Hx) as (m & Hm & (Im & Mx) & E).
  eexists. split; [exact E|]. rewrite products_int64 by (try assumption; try lia; specialize (Hl m Im); lia).
  apply Forall2_map. intros y Hy. apply found_least; auto.
Qed.

(** ** The exact logarithm *)
Lemma clog_from_spec fuel : forall p v m, 2 <= v -> m <= v ^ Z.of_nat (p + fuel) -> m <= v ^ Z.of_nat (clog_from fuel p v m)
  /\ (clog_from fuel p v m <= p + fuel)%nat /\ forall q, (p <= q < clog_from fuel p v m)%nat -> v ^ Z.of_nat q < m.
Proof.
  induction fuel as [|fuel IH]; intros p v m Hv H; cbn [clog_from].
  - rewrite Nat.add_0_r in H. split; [exact H|]. split; [lia|]. intros q Hq. lia.
  - destruct (Z.leb_spec m (v ^ Z.of_nat p)) as [L|L]; [split; [exact L|]; split; [lia|intros q Hq; lia]|].
    destruct (IH (S p) v m Hv) as (A & B & C); [replace (S p + fuel)%nat with (p + S fuel)%nat by lia; exact H|].
    split; [exact A|]. split; [lia|]. intros q Hq. destruct (Nat.eq_dec q p) as [->|N]; [exact L|]. apply C. lia.
Qed.
Lemma clog_bound v m : 2 <= v -> 1 <= m -> m <= v ^ Z.of_nat (Z.to_nat (Z.log2_up m)).
Proof.
  intros Hv Hm. rewrite Z2Nat.id by apply Z.log2_up_nonneg. destruct (Z.eq_dec m 1) as [->|N]; [cbn; lia|].
  apply Z.le_trans with (2 ^ Z.log2_up m); [apply Z.log2_up_spec; lia|]. apply Z.pow_le_mono_l. lia.
Qed.
Lemma clog_rounds_up : rounds_up clog.
Proof. intros v m Hv Hm. unfold clog. apply clog_from_spec; [exact Hv|]. cbn [Nat.add]. apply clog_bound; assumption. Qed.
Lemma clog_exact v m : 2 <= v -> 1 <= m -> m <= v ^ Z.of_nat (clog v m) /\ forall q, (q < clog v m)%nat -> v ^ Z.of_nat q < m.
Proof.
  intros Hv Hm. unfold clog. destruct (clog_from_spec (Z.to_nat (Z.log2_up m)) 0 v m Hv (clog_bound v m Hv Hm)) as (A & _ & C).
  split; [exact A|]. intros q Hq. apply C. lia.
Qed.

(** ** Consequences *)
Lemma least_unique factors a r r' : least_multiple factors a r -> least_multiple factors a r' -> r = r'.
Proof. intros (P & A & L) (P' & A' & L'). specialize (L r' P' A'). specialize (L' r P A). lia. Qed.
Lemma power_single l v k : In v l -> 0 <= k -> product_of_powers l (v ^ k).
Proof.
  intros H Hk. induction l as [|w l IH]; [contradiction|]. destruct H as [->|H].
  - rewrite <- (Z.mul_1_r (v ^ k)). apply pp_cons; [exact Hk|]. clear. induction l as [|w l IH]; [constructor|].
    replace 1 with (w ^ 0 * 1) by (cbn; lia). apply pp_cons; [lia|exact IH].
  - rewrite <- (Z.mul_1_l (v ^ k)). change 1 with (w ^ 0). apply pp_cons; [lia|exact (IH H)].
Qed.
Lemma least_bound factors a r v : Forall (fun v => 2 <= v) factors -> In v factors -> 1 <= a -> least_multiple factors a r -> r < v * a.
Proof.
  intros F Hv Ha (P & _ & L). assert (2 <= v) by (revert v Hv; apply Forall_forall; exact F).
  destruct (clog_exact v a ltac:(assumption) Ha) as (A & B). pose proof (L _ (power_single factors v (Z.of_nat (clog v a)) Hv ltac:(lia)) A) as R.
  destruct (clog v a) as [|q]; [cbn in R; nia|]. specialize (B q ltac:(lia)). rewrite Nat2Z.inj_succ, Z.pow_succ_r in R by lia. nia.
Qed.

Lemma lgm_rejects numpy2 wrap power a factors : (exists v, In v factors /\ v <= 0) -> least_greater_multiple numpy2 wrap power a factors = Raise ValueError.
Proof.
  intros (v & Hv & H). unfold least_greater_multiple. replace (existsb (fun v => v <=? 0) factors) with true; [reflexivity|].
  symmetry. apply existsb_exists. exists v. split; [exact Hv|]. now apply Z.leb_le.
Qed.
