From Verif Require Import Base Algebra Dft FftModel FftSpec.
Local Open Scope nat_scope.

Section Proofs.
Context {K : cfield}.
Add Ring KringF : (rth K).
Notation array := (list nat -> K).
Context (w : nat -> K).

(** ** shapes and axes *)
Notation ax := (all_axes w).
Lemma inside_index s i : Dft.inside (ax s) i <-> index s i.
Proof.
  revert i. induction s as [|n s IH]; intros i; split; intros H; inversion H; subst; constructor; auto; apply IH; auto.
Qed.
Lemma bsum_total s (f : array) : bsum (ax s) f = total s f.
Proof. revert f. induction s as [|n s IH]; intros f; cbn [all_axes map bsum total a_n]; auto. apply sum_ext. intros. apply IH. Qed.
Lemma all_on_ax s : all_on (ax s).
Proof. unfold all_on. induction s; cbn; constructor; auto. Qed.
Lemma norm_ax s : norm (ax s) = product s.
Proof. induction s; cbn; auto. Qed.
Notation roots := (roots w).
Lemma roots_ok s : roots s -> Forall axis_ok (ax s).
Proof. induction 1; cbn; constructor; auto. Qed.
Lemma roots_pos s : roots s -> Forall (fun n => 0 < n) s.
Proof. intros H. eapply Forall_impl; [|exact H]. intros n [P _]. auto. Qed.
Lemma product_pos s : roots s -> product s <> 0.
Proof. intros H. apply roots_pos in H. induction H; cbn; [lia|]. unfold product in IHForall. nia. Qed.
Lemma ninv_product s : roots s -> rmul (ninv (product s)) (rnat (product s)) = r1 :> K.
Proof. intros H. apply ninv_ok, product_pos, H. Qed.

(** ** subtraction of indices *)
Definition sub1 (n i j : nat) : nat := (i + (n - j) mod n) mod n.
Lemma sub1_eq n i j : i < n -> j < n -> sub1 n i j = if j <=? i then i - j else i + n - j.
Proof.
  intros Hi Hj. unfold sub1. rewrite Nat.add_mod_idemp_r by lia. rewrite mod_small_or by lia. destruct (Nat.leb_spec j i), (Nat.ltb_spec (i + (n - j)) n); lia.
Qed.
Lemma sub1_lt n i j : i < n -> j < n -> sub1 n i j < n.
Proof. intros. unfold sub1. apply Nat.mod_upper_bound. lia. Qed.
Lemma subi_cons n s i j m p : subi (ax (n :: s)) (i :: m) (j :: p) = sub1 n i j :: subi (ax s) m p.
Proof. reflexivity. Qed.
Lemma subi_inside s i j : index s i -> index s j -> index s (subi (ax s) i j).
Proof.
  revert i j. induction s as [|n s IH]; intros i j I J; inversion I; subst; inversion J; subst; [constructor|]. rewrite subi_cons. constructor; [apply sub1_lt; auto|apply IH; auto].
Qed.
Lemma subi_subi s i j : index s i -> index s j -> subi (ax s) i (subi (ax s) i j) = j.
Proof.
  revert i j. induction s as [|n s IH]; intros i j I J; inversion I; subst; inversion J; subst; [reflexivity|]. rewrite !subi_cons. f_equal; [|apply IH; auto].
  rewrite (sub1_eq n y (sub1 n y y0)) by auto using sub1_lt. rewrite sub1_eq by auto. destruct (Nat.leb_spec y0 y); [destruct (Nat.leb_spec (y - y0) y); lia|destruct (Nat.leb_spec (y + n - y0) y); lia].
Qed.
(** reindexing by j = m - q *)
Lemma total_sub s m (F : array) : roots s -> index s m -> total s (fun q => F (subi (ax s) m q)) = total s F.
Proof.
  intros R M. pose proof (roots_ok s R) as A. rewrite <- !bsum_total. unfold subi. rewrite (bsum_neg (ax s) (fun q => F (addi (ax s) m q)) A).
  rewrite <- (bsum_shift (ax s) m F A) by (apply inside_index; auto). apply bsum_ext. intros l _. f_equal. unfold addi.
  generalize (ax s). intros d. clear. revert m l. induction d as [|a d IH]; intros [|x m] [|y l]; cbn; auto. f_equal; [f_equal; lia|apply IH].
Qed.
Lemma cconv_total s g x m : cconv (ax s) g x m = total s (fun j => rmul (g (subi (ax s) m j)) (x j)).
Proof. apply bsum_total. Qed.
Lemma total_ext s (f g : array) : (forall i, index s i -> f i = g i) -> total s f = total s g.
Proof. intros H. rewrite <- !bsum_total. apply bsum_ext. intros l Hl. apply H, inside_index, Hl. Qed.
Lemma cconv_comm s g x m : roots s -> index s m -> cconv (ax s) g x m = total s (fun q => rmul (g q) (x (subi (ax s) m q))).
Proof.
  intros R M. rewrite cconv_total. rewrite <- (total_sub s m _ R M). apply total_ext. intros q Hq. rewrite subi_subi by auto. reflexivity.
Qed.

(** ** the kernel *)
Fixpoint shift (s o i : list nat) : list nat :=
  match s, o, i with n :: s, c :: o, v :: i => ((v + c) mod n) :: shift s o i | _, _, _ => [] end.
Lemma upd_nth_app pre v i f : upd_nth (length pre) f (pre ++ v :: i) = pre ++ f v :: i.
Proof. induction pre; cbn; auto. rewrite IHpre. reflexivity. Qed.
Lemma rolls s : forall o pre i x, length o = length s -> length i = length s ->
  fold_left (fun (x : array) p => let '(a, (n, o)) := p in roll n o a x) (combine (seq (length pre) (length s)) (combine s o)) x (pre ++ i) = x (pre ++ shift s o i).
Proof.
  induction s as [|n s IH]; intros [|c o] pre [|v i] x Lo Li; cbn in Lo, Li; try lia; auto.
  cbn [length seq combine fold_left shift]. replace (pre ++ v :: i) with ((pre ++ [v]) ++ i) by (rewrite <- app_assoc; reflexivity).
  replace (S (length pre)) with (length (pre ++ [v])) by (rewrite app_length; cbn; lia). rewrite IH by lia. unfold roll. rewrite <- app_assoc. cbn [app]. rewrite upd_nth_app. reflexivity.
Qed.
Lemma index_length s i : index s i -> length i = length s.
Proof. intros H. induction H; cbn; auto. Qed.
Lemma padded_ok s ks ker i : length ks = length s -> index s i ->
  padded_kernel s ks ker i = if inb ks (shift s (origin ks) i) then ker (shift s (origin ks) i) else r0 :> K.
Proof.
  intros L I. unfold padded_kernel. rewrite L. apply (rolls s (origin ks) [] i); [unfold origin; rewrite map_length; auto|apply index_length; auto].
Qed.
Lemma fits_length s ks : fits s ks -> length ks = length s.
Proof. induction 1; cbn; auto. Qed.
Lemma inb_pad s ks (ker F : array) : fits s ks ->
  total s (fun p => rmul (if inb ks p then ker p else r0) (F p)) = total ks (fun p => rmul (ker p) (F p)).
Proof.
  intros H. revert ker F. induction H as [|n k s ks Hk H IH]; intros ker F; cbn [total]; [reflexivity|].
  replace n with (k + (n - k)) by lia. rewrite sum_split. rewrite (sum_zero (n - k)).
  - rewrite radd_0_r. apply sum_ext. intros i Hi. rewrite <- (IH (fun p => ker (i :: p)) (fun p => F (i :: p))). apply total_ext. intros p Hp. cbn [inb]. destruct (Nat.ltb_spec i k); [|lia]. reflexivity.
  - intros i Hi. rewrite <- bsum_total. apply bsum_zero. intros p Hp. cbn [inb]. destruct (Nat.ltb_spec (k + i) k); [lia|]. cbn [andb]. ring.
Qed.
Lemma fits_origin s ks : roots s -> fits s ks -> index s (origin ks).
Proof.
  intros R H. apply roots_pos in R. induction H as [|n k s ks Hk H IH]; inversion R; subst; constructor; [|apply IH; auto].
  assert ((k - 1) / 2 <= k - 1) by (apply Nat.div_le_upper_bound; lia). lia.
Qed.
Lemma shift_addi s o i : shift s o i = addi (ax s) i o.
Proof. unfold addi. revert o i. induction s as [|n s IH]; intros [|c o] [|v i]; cbn; auto. f_equal. apply IH. Qed.
Lemma total_shift s o (F : array) : roots s -> index s o -> total s (fun i => F (shift s o i)) = total s F.
Proof.
  intros R O. rewrite <- !bsum_total. rewrite <- (bsum_shift (ax s) o F (roots_ok s R)) by (apply inside_index; auto). apply bsum_ext. intros. rewrite shift_addi. reflexivity.
Qed.
Lemma before_shift s o m i : index s o -> index s m -> index s i -> before s o m (shift s o i) = subi (ax s) m i.
Proof.
  intros O. revert m i. induction O as [|n c s o Hc O IH]; intros m i M I; inversion M; subst; inversion I; subst; [reflexivity|]. rewrite subi_cons. cbn [shift before]. f_equal; [|apply IH; auto].
  rewrite sub1_eq by auto. rewrite (mod_small_or n (y0 + c)) by lia. destruct (Nat.ltb_spec (y0 + c) n).
  - replace (y + c + (n - (y0 + c))) with (y + (n - y0)) by lia. rewrite mod_small_or by lia. destruct (Nat.leb_spec y0 y), (Nat.ltb_spec (y + (n - y0)) n); lia.
  - replace (y + c + (n - (y0 + c - n))) with (y + (n - y0) + 1 * n) by lia. rewrite Nat.mod_add by lia. rewrite mod_small_or by lia. destruct (Nat.leb_spec y0 y), (Nat.ltb_spec (y + (n - y0)) n); lia.
Qed.
Lemma before_0 s m i : index s m -> index s i -> before s (map (fun _ => 0) s) m i = subi (ax s) m i.
Proof.
  intros M. revert i. induction M as [|n y s m Hy M IH]; intros i I; inversion I; subst; [reflexivity|]. rewrite subi_cons. cbn [map before]. f_equal; [|apply IH; auto].
  unfold sub1. rewrite Nat.add_mod_idemp_r by lia. f_equal. lia.
Qed.
Lemma circular_cconv s (g x : array) : roots s -> same s (circular s g x) (cconv (ax s) g x).
Proof. intros R m M. rewrite cconv_comm by auto. apply total_ext. intros p P. rewrite before_0 by auto. reflexivity. Qed.
Lemma after_shift s o m i : index s o -> index s m -> index s i -> after s o m (shift s o i) = addi (ax s) m i.
Proof.
  intros O. revert m i. induction O as [|n c s o Hc O IH]; intros m i M I; inversion M; subst; inversion I; subst; [reflexivity|]. cbn [shift after]. unfold addi. cbn [all_axes map combine a_n]. f_equal; [|apply IH; auto].
  rewrite (mod_small_or n (y0 + c)) by lia. destruct (Nat.ltb_spec (y0 + c) n).
  - replace (y + (n - c) + (y0 + c)) with (y + y0 + 1 * n) by lia. apply Nat.mod_add. lia.
  - f_equal. lia.
Qed.

(** convolutions *)
Lemma cconv_convolution s ks ker x m : roots s -> fits s ks -> index s m -> cconv (ax s) (padded_kernel s ks ker) x m = convolution s ks ker x m.
Proof.
  intros R H M. pose proof (fits_origin s ks R H) as O. assert (length ks = length s) as L by (apply fits_length, H).
  rewrite cconv_comm by auto. unfold convolution. change (centre ks) with (origin ks). rewrite <- (inb_pad s ks ker (fun p => x (before s (origin ks) m p)) H).
  etransitivity; [|apply (total_shift s (origin ks) _ R O)]. apply total_ext. intros i Hi. rewrite padded_ok by auto. rewrite before_shift by auto. reflexivity.
Qed.
Lemma cconv_correlation s ks ker x m : roots s -> fits s ks -> index s m ->
  cconv (ax s) (fun i => padded_kernel s ks ker (negi (ax s) i)) x m = correlation s ks ker x m.
Proof.
  intros R H M. pose proof (fits_origin s ks R H) as O. assert (length ks = length s) as L by (apply fits_length, H). pose proof (roots_ok s R) as A.
  rewrite cconv_comm by auto. unfold correlation. change (centre ks) with (origin ks). rewrite <- (inb_pad s ks ker (fun p => x (after s (origin ks) m p)) H).
  etransitivity; [|apply (total_shift s (origin ks) _ R O)].
  etransitivity; [|apply bsum_total]. etransitivity; [|apply (bsum_neg (ax s) _ A)]. rewrite bsum_total.
  apply total_ext. intros i Hi. assert (index s (negi (ax s) i)) as N by (apply inside_index, negi_inside; auto; apply inside_index; auto).
  rewrite padded_ok by auto. rewrite after_shift by auto. reflexivity.
Qed.

(** ** transforms *)
Lemma fwd_scale d c (x : array) k : fwd d (fun j => rmul c (x j)) k = rmul c (fwd d x k).
Proof. unfold fwd. rewrite <- bsum_mul_l. apply bsum_ext. intros. ring. Qed.
Lemma fwd_add d (x y : array) k : fwd d (fun j => radd (x j) (y j)) k = radd (fwd d x k) (fwd d y k).
Proof. unfold fwd. rewrite <- bsum_add. apply bsum_ext. intros. ring. Qed.
Lemma fwd_ext d (x y : array) k : (forall j, Dft.inside d j -> x j = y j) -> fwd d x k = fwd d y k.
Proof. intros H. unfold fwd. apply bsum_ext. intros j Hj. rewrite H; auto. Qed.
Lemma bwd_ext d (x y : array) k : (forall j, Dft.inside d j -> x j = y j) -> bwd d x k = bwd d y k.
Proof. intros H. unfold bwd. apply bsum_ext. intros j Hj. rewrite H; auto. Qed.
Lemma bwd_scale d c (x : array) k : bwd d (fun j => rmul c (x j)) k = rmul c (bwd d x k).
Proof. unfold bwd. rewrite <- bsum_mul_l. apply bsum_ext. intros. ring. Qed.
Lemma fwd_conj_neg d (g : array) k : Forall axis_ok d -> all_on d -> (forall j, Dft.inside d j -> is_real (g j)) -> Dft.inside d k ->
  conj (fwd d g k) = fwd d (fun j => g (negi d j)) k.
Proof.
  intros F O R Hk. rewrite <- (fwd_hermitian d g F O R k Hk). unfold fwd. rewrite <- (bsum_neg d (fun j => rmul (chi d j (negi d k)) (g j)) F). apply bsum_ext. intros m Hm. f_equal.
  rewrite chi_neg by (auto using negi_inside). rewrite (chi_sym d m (negi d k)), chi_neg by auto. rewrite conj_conj. apply chi_sym.
Qed.

(** the stored elements of a half spectrum *)
Definition stored (s k : list nat) : Prop := match s, k with n :: _, i :: _ => i <= n / 2 | _, _ => True end.
Lemma half_eq_stored s (X Y : array) : half_eq (ax s) X Y <-> forall k, index s k -> stored s k -> X k = Y k.
Proof.
  unfold half_eq. split; intros H k Hk.
  - intros S. apply inside_index in Hk. specialize (H k Hk). apply inside_index in Hk. inversion Hk; subst; cbn in *; auto.
  - apply inside_index in Hk. pose proof (H k Hk) as H'. inversion Hk; subst; cbn in *; auto.
Qed.
Lemma r2c_stored s junk x k : real s x -> index s k -> stored s k -> r2c (ax s) junk x k = fwd (ax s) x k.
Proof.
  intros R I S. inversion I; subst; cbn [all_axes map r2c a_n].
  - rewrite re_real. { unfold fwd. cbn. ring. } apply (R []). constructor.
  - unfold stored in S. apply Nat.leb_le in S. rewrite S. reflexivity.
Qed.

(** ** real convolutions: the operator is the convolution by g *)
Definition reps (s : list nat) (op : rconv K) (g : array) : Prop :=
  real s g /\ forall k, index s k -> stored s k -> get_kernel op k = rmul (ninv (product s)) (fwd (ax s) g k).

Section Ops.
Context (s : list nat) (R : roots s).
Notation d := (ax s).
Notation n := (product s).
Let A : Forall axis_ok d := roots_ok s R.
Let O : all_on d := all_on_ax s.
Lemma real_inside (x : array) : real s x -> forall j, Dft.inside d j -> is_real (x j).
Proof. intros H j Hj. apply H, inside_index, Hj. Qed.
Lemma cconv_real (g x : array) : real s g -> real s x -> real s (cconv d g x).
Proof.
  intros G X i Hi. unfold cconv. rewrite conj_bsum. apply bsum_ext. intros l Hl. apply inside_index in Hl. rewrite conj_mul. f_equal; [apply G, subi_inside; auto|apply X; auto].
Qed.
Lemma scale_real (g : array) : real s g -> real s (fun j => rmul (ninv n) (g j)).
Proof. intros G i Hi. rewrite conj_mul, conj_ninv by (apply product_pos, R). f_equal. apply G, Hi. Qed.
(** from a spectrum to the array *)
Lemma c2r_spectrum X y m : real s y -> (forall k, index s k -> stored s k -> X k = rmul (ninv n) (fwd d y k)) -> index s m -> c2r d X m = y m.
Proof.
  intros Y H M. pose proof (proj2 (inside_index s m) M) as M'. rewrite (c2r_ext d X (fwd d (fun j => rmul (ninv n) (y j)))); auto.
  - rewrite c2r_bwd; auto. 2:{ apply fwd_hermitian; auto. apply real_inside, scale_real, Y. }
    rewrite bwd_fwd by auto. rewrite norm_ax, rmul_assoc, (rmul_comm (rnat n)), ninv_product by auto. ring.
  - apply half_eq_stored. intros k Hk S. rewrite H by auto. symmetry. apply fwd_scale.
Qed.
Lemma direct_ok op g junk x : reps s op g -> real s x -> same s (rc_direct w s junk op x) (cconv d g x).
Proof.
  intros [G H] X m M. unfold rc_direct.
  assert (forall k, (if rc_transposed op then fun k => rmul (r2c d junk x k) (conj (rc_kernel op k)) else fun k => rmul (r2c d junk x k) (rc_kernel op k)) k = rmul (r2c d junk x k) (get_kernel op k)) as E
    by (intros; unfold get_kernel; destruct (rc_transposed op); reflexivity).
  apply c2r_spectrum; auto using cconv_real. intros k Hk S. rewrite E, H, r2c_stored by auto. rewrite fwd_conv by (auto; apply inside_index; auto). ring.
Qed.
Lemma make_reps ks junk ker op : real ks ker -> make_real w s ks junk ker = Ok op -> fits s ks /\ reps s op (padded_kernel s ks ker) /\ rc_transposed op = false.
Proof.
  intros RK E. unfold make_real in E. destruct (Nat.eqb_spec (length s) (length ks)) as [L|]; [cbn [negb] in E|discriminate]. destruct (existsb _ _) eqn:B; [discriminate|]. injection E as <-.
  assert (fits s ks) as F.
  { clear - L B. revert ks L B. induction s as [|a l IH]; intros [|k ks] L B; cbn in L; try discriminate; [constructor|]. cbn in B. apply orb_false_iff in B as [B1 B2]. constructor; [|apply IH; auto]. apply Nat.ltb_ge. exact B1. }
  split; auto. split; [|reflexivity]. assert (real s (padded_kernel s ks ker)) as RP.
  { intros i Hi. rewrite padded_ok by (auto using fits_length). destruct (inb ks _) eqn:I; [|apply conj_0]. apply RK.
    pose proof (fits_origin s ks R F) as Oo. clear - I F Hi Oo. revert I Hi Oo. generalize (origin ks) as o. intros o I Hi Oo. revert ks F I. induction Hi as [|a v l i Hv Hi IH] in o, Oo |- *; intros ks F I; inversion F; subst; inversion Oo; subst; [constructor|].
    cbn [shift inb] in *. apply andb_true_iff in I as [I1 I2]. constructor; [apply Nat.ltb_lt; auto|apply IH; auto]. }
  split; auto. intros k Hk S. cbn [get_kernel rc_transposed rc_kernel]. rewrite r2c_stored by auto. ring.
Qed.
Lemma neg_real (g : array) : real s g -> real s (fun j => g (negi d j)).
Proof. intros G i Hi. apply G. apply inside_index, negi_inside; auto. apply inside_index, Hi. Qed.
Lemma T_reps op g : rc_transposed op = false -> reps s op g -> reps s (rc_T op) (fun j => g (negi d j)).
Proof.
  intros E [G H]. split; [apply neg_real, G|]. intros k Hk S. unfold get_kernel in *. rewrite E in H. cbn [rc_T rc_transposed rc_kernel]. rewrite H by auto.
  rewrite conj_mul, conj_ninv by (apply product_pos, R). f_equal. apply fwd_conj_neg; auto; [apply real_inside, G|apply inside_index; auto].
Qed.
Lemma homothety_reps op g a : conj a = a -> reps s op g -> reps s (rc_homothety op a) (fun j => rmul a (g j)).
Proof.
  intros E [G H]. split. { intros i Hi. rewrite conj_mul, E. f_equal. apply G, Hi. } intros k Hk S. unfold get_kernel at 1, rc_homothety. cbn [rc_transposed rc_kernel]. rewrite H by auto. rewrite fwd_scale. ring.
Qed.
Lemma add_reps op1 op2 g1 g2 : reps s op1 g1 -> reps s op2 g2 -> reps s (rc_add op1 op2) (fun j => radd (g1 j) (g2 j)).
Proof.
  intros [G1 H1] [G2 H2]. split. { intros i Hi. rewrite conj_add. f_equal; [apply G1, Hi|apply G2, Hi]. }
  intros k Hk S. rewrite fwd_add. unfold rc_add. destruct (rc_transposed op2); unfold get_kernel at 1; cbn [rc_transposed rc_kernel]; rewrite H1, H2 by auto; ring.
Qed.
Lemma cmp_reps op1 op2 g1 g2 : reps s op1 g1 -> reps s op2 g2 -> reps s (rc_cmp s op1 op2) (cconv d g1 g2).
Proof.
  intros [G1 H1] [G2 H2]. split; [apply cconv_real; auto|]. intros k Hk S. rewrite fwd_conv by (auto; apply inside_index; auto).
  assert (rmul (ninv n) (rnat n) = r1 :> K) as N by (apply ninv_product; auto).
  transitivity (rmul (rmul (ninv n) (rnat n)) (rmul (ninv n) (rmul (fwd d g1 k) (fwd d g2 k)))); [|rewrite N; ring].
  unfold rc_cmp. destruct (rc_transposed op2); unfold get_kernel at 1; cbn [rc_transposed rc_kernel]; rewrite H1, H2 by auto; ring.
Qed.
(** arrays with the same transform are the same *)
Lemma fwd_inj (x y : array) : (forall k, Dft.inside d k -> fwd d x k = fwd d y k) -> same s x y.
Proof.
  intros H i Hi. pose proof (proj2 (inside_index s i) Hi) as Hi'. assert (rmul (rnat n) (x i) = rmul (rnat n) (y i)) as E.
  { rewrite <- norm_ax. rewrite <- !bwd_fwd by auto. apply bwd_ext, H. }
  assert (rmul (ninv n) (rnat n) = r1 :> K) as N by (apply ninv_product; auto).
  transitivity (rmul (ninv n) (rmul (rnat n) (x i))); [rewrite rmul_assoc, N; ring|]. rewrite E, rmul_assoc, N. ring.
Qed.
Lemma cconv_assoc (g1 g2 x : array) : same s (cconv d (cconv d g1 g2) x) (cconv d g1 (cconv d g2 x)).
Proof. apply fwd_inj. intros k Hk. rewrite !fwd_conv by auto. ring. Qed.
Lemma cconv_ext (g g' x y : array) : same s g g' -> same s x y -> same s (cconv d g x) (cconv d g' y).
Proof. intros G X m M. rewrite !cconv_total. apply total_ext. intros j Hj. rewrite G, X; auto. apply subi_inside; auto. Qed.
(** the transpose *)
Lemma neg_adjoint (g x y : array) : total s (fun m => rmul (y m) (cconv d g x m)) = total s (fun j => rmul (cconv d (fun i => g (negi d i)) y j) (x j)).
Proof.
  rewrite <- !bsum_total. unfold cconv.
  rewrite (bsum_ext d _ (fun m => bsum d (fun j => rmul (rmul (y m) (g (subi d m j))) (x j)))) by (intros; rewrite <- bsum_mul_l; apply bsum_ext; intros; ring).
  rewrite bsum_swap. apply bsum_ext. intros j Hj. rewrite (rmul_comm _ (x j)), <- bsum_mul_l. apply bsum_ext. intros m Hm. apply inside_index in Hj, Hm.
  assert (negi d (subi d j m) = subi d m j) as ->; [|ring].
  clear - Hj Hm. revert m Hm. induction Hj as [|a v l j Hv Hj IH]; intros m Hm; inversion Hm; subst; [reflexivity|]. rewrite !subi_cons. unfold negi. cbn [all_axes map combine a_n]. f_equal; [|apply IH; auto].
  rewrite !sub1_eq by auto. rewrite mod_small_or by (try destruct (y <=? v); lia). destruct (Nat.leb_spec y v), (Nat.leb_spec v y); try lia; match goal with |- context [?a <? ?b] => destruct (Nat.ltb_spec a b) end; lia.
Qed.
(** with complex transforms *)
Lemma restore_ok op g : reps s op g -> same s (restore_kernel w s op) g.
Proof. intros [G H] i Hi. unfold restore_kernel. apply c2r_spectrum; auto. Qed.
Lemma backward_ok op g y : reps s op g -> same s (bwd d (fun k => rmul (snd (rule_backward w s op) k) (y k))) (cconv d g (bwd d y)).
Proof.
  intros H. assert (rmul (ninv n) (rnat n) = r1 :> K) as N by (apply ninv_product; auto).
  apply fwd_inj. intros k Hk. rewrite fwd_conv, !fwd_bwd by auto. cbn [rule_backward snd f_H]. unfold scaled_direct. cbn [fst snd f_direct].
  assert (fwd d (restore_kernel w s op) k = fwd d g k) as -> by (apply fwd_ext; intros j Hj; apply restore_ok; auto; apply inside_index; auto).
  rewrite norm_ax. transitivity (rmul (rmul (ninv n) (rnat n)) (rmul (rnat n) (rmul (fwd d g k) (y k)))); [ring|]. rewrite N. ring.
Qed.
Lemma forward_ok op g x : reps s op g -> same s (fun k => rmul (fst (rule_forward w s op) k) (fwd d x k)) (fwd d (cconv d g x)).
Proof.
  intros H k Hk. apply inside_index in Hk. rewrite fwd_conv by auto. cbn [rule_forward fst f_direct]. f_equal. apply fwd_ext. intros j Hj. apply restore_ok; auto. apply inside_index; auto.
Qed.
Lemma complex_ok ks ker x : fits s ks -> same s (complex_direct w s ks ker x) (convolution s ks ker x).
Proof.
  intros F i Hi. rewrite <- cconv_convolution by auto. assert (rmul (ninv n) (rnat n) = r1 :> K) as N by (apply ninv_product; auto).
  unfold complex_direct, scaled_direct. cbn [f_H fst snd f_direct].
  rewrite (bwd_ext d _ (fwd d (fun j => rmul (ninv n) (cconv d (padded_kernel s ks ker) x j)))).
  - rewrite bwd_fwd by (auto; apply inside_index; auto). rewrite norm_ax.
    transitivity (rmul (rmul (rmul (ninv n) (rnat n)) (rmul (ninv n) (rnat n))) (cconv d (padded_kernel s ks ker) x i)); [ring|]. rewrite N. ring.
  - intros k Hk. rewrite fwd_scale, fwd_conv by auto. ring.
Qed.
Lemma reachable_reps op : reachable w s op -> exists g, reps s op g.
Proof.
  induction 1 as [ks junk ker op RK E|op _ [g IH] E|op a _ [g IH] E|op1 op2 _ [g1 I1] _ [g2 I2]|op1 op2 _ [g1 I1] _ [g2 I2]].
  - eexists. apply (make_reps ks junk ker op RK E).
  - eexists. apply T_reps; eauto.
  - eexists. apply homothety_reps; eauto.
  - eexists. apply add_reps; eauto.
  - eexists. apply cmp_reps; eauto.
Qed.
Lemma direct_real op junk x : reachable w s op -> real s x -> real s (rc_direct w s junk op x).
Proof. intros H X i Hi. destruct (reachable_reps op H) as [g G]. rewrite (direct_ok op g junk x G X i Hi). apply cconv_real; auto. apply G. Qed.
End Ops.
End Proofs.
