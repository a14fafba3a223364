From Verif Require Import Base Algebra Dft ToepModel ToepSpec.
Local Open Scope nat_scope.

Section Proofs.
Context {K : cfield}.
Add Ring KringT : (rth K).
Notation vec := (list K).

(** ** the size *)
Lemma double_ge fuel : forall s target, 1 <= s -> target <= s + fuel -> target <= double fuel s target.
Proof.
  induction fuel; intros s target Hs H; cbn [double]; [lia|]. destruct (Nat.ltb_spec s target); [|lia]. apply IHfuel; lia.
Qed.
Lemma double_pow fuel : forall s target, exists k, double fuel s target = s * 2 ^ k.
Proof.
  induction fuel; intros s target; cbn [double]; [exists 0; cbn; lia|]. destruct (s <? target); [|exists 0; cbn; lia].
  destruct (IHfuel (s * 2) target) as [k E]. exists (S k). rewrite E. cbn. lia.
Qed.
Lemma fftsize_ge nsamples ncorr : nsamples + ncorr <= fftsize nsamples ncorr.
Proof. apply double_ge; lia. Qed.
Lemma fftsize_even nsamples ncorr : exists m, fftsize nsamples ncorr = 2 * m /\ 0 < m.
Proof.
  unfold fftsize. destruct (double_pow (nsamples + ncorr) 2 (nsamples + ncorr)) as [k ->]. exists (2 ^ k). split; auto. pose proof (Nat.pow_nonzero 2 k). lia.
Qed.

(** ** lists *)
Lemma map_seq_nth {A} (f : nat -> A) m i d : i < m -> nth i (map f (seq 0 m)) d = f i.
Proof. intros H. rewrite (nth_indep _ _ (f 0)) by (rewrite map_length, seq_length; auto). rewrite map_nth, seq_nth by auto. reflexivity. Qed.
Lemma repeat_nth {A} (a : A) m i d : nth i (repeat a m) d = if i <? m then a else d.
Proof. revert i. induction m; intros [|i]; cbn [repeat nth]; auto. rewrite IHm. reflexivity. Qed.
Lemma firstn_nth {A} m (l : list A) i d : nth i (firstn m l) d = if i <? m then nth i l d else d.
Proof. revert l i. induction m; intros [|a l] [|i]; cbn [firstn nth]; auto. { destruct (S i <? S m); auto. } rewrite IHm. reflexivity. Qed.
Lemma skipn_nth {A} m (l : list A) i d : nth i (skipn m l) d = nth (m + i) l d.
Proof. revert l. induction m; intros [|a l]; cbn; auto. destruct i; auto. Qed.
Lemma combine_map_nth (u v : vec) i : i < length u -> i < length v -> nth i (map (fun p => rmul (fst p) (snd p)) (combine u v)) r0 = rmul (nth i u r0) (nth i v r0).
Proof. revert v i. induction u as [|a u IH]; intros [|b v] [|i] H1 H2; cbn in *; try lia; auto. apply IH; lia. Qed.

(** ** the buffer of the kernel *)
Lemma set_slice_ok a b (v buf : vec) : length v = b - a -> a <= b -> b <= length buf ->
  exists r, set_slice a b v buf = Ok r /\ length r = length buf /\ forall i d, nth i r d = if (a <=? i) && (i <? b) then nth (i - a) v d else nth i buf d.
Proof.
  intros L H1 H2. unfold set_slice. rewrite Nat.min_l by lia. rewrite <- L, Nat.eqb_refl. eexists. split; [reflexivity|].
  assert (length (firstn a buf) = a) as F by (rewrite firstn_length; lia). split.
  - rewrite !app_length, skipn_length, F. lia.
  - intros i d. destruct (Nat.leb_spec a i); cbn [andb].
    + rewrite app_nth2 by lia. rewrite F. destruct (Nat.ltb_spec i b).
      * apply app_nth1. lia.
      * rewrite app_nth2 by lia. rewrite skipn_nth. f_equal. lia.
    + rewrite app_nth1 by lia. rewrite firstn_nth. destruct (Nat.ltb_spec i a); auto; lia.
Qed.
Lemma zero_slice_ok a b (buf : vec) : b <= length buf -> a <= length buf -> length (zero_slice a b buf) = length buf /\
  forall i d, i < length buf -> nth i (zero_slice a b buf) d = if (a <=? i) && (i <? b) then r0 else nth i buf d.
Proof.
  intros H1 H2. unfold zero_slice. rewrite Nat.min_l by lia. assert (length (firstn a buf) = a) as F by (rewrite firstn_length; lia). split.
  - rewrite !app_length, skipn_length, repeat_length, F. lia.
  - intros i d Hi. destruct (Nat.leb_spec a i); cbn [andb].
    + rewrite app_nth2 by lia. rewrite F. destruct (Nat.ltb_spec i b).
      * rewrite app_nth1 by (rewrite repeat_length; lia). rewrite repeat_nth. destruct (Nat.ltb_spec (i - a) (b - a)); auto; lia.
      * rewrite app_nth2 by (rewrite repeat_length; lia). rewrite skipn_nth, repeat_length. f_equal. lia.
    + rewrite app_nth1 by lia. rewrite firstn_nth. destruct (Nat.ltb_spec i a); auto; lia.
Qed.
Lemma rev_tl_nth (f : vec) i : i + 1 < length f -> nth i (rev (tl f)) r0 = nth (length f - 1 - i) f r0.
Proof.
  intros H. destruct f as [|a f]; cbn [length tl] in *; [lia|]. rewrite rev_nth by lia. replace (S (length f) - 1 - i) with (S (length f - S i)) by lia. reflexivity.
Qed.

(** the buffer whose transform is the kernel *)
Lemma kernel_buffer n ns nc (buf f : vec) w : 0 < ns -> 0 < nc -> ns + nc <= n -> length buf = n -> length f = nc + 1 ->
  exists c, get_kernel w n nc buf f = Ok (map (fun c => rmul (re c) (ninv n)) (fftw_r2c n w c)) /\ length c = n /\
  (forall i, In (nth i c r0) f \/ nth i c r0 = r0) /\
  forall d, d < ns -> nth d c r0 = nth d f r0 /\ (0 < d -> nth (n - d) c r0 = nth d f r0).
Proof.
  intros Hs Hc Hn Lb Lf. unfold get_kernel.
  destruct (set_slice_ok 0 (nc + 1) f buf) as (b1 & -> & L1 & N1); [lia|lia|lia|]. cbn [rbind].
  destruct (zero_slice_ok (nc + 1) (n - nc) b1) as [L2 N2]; [lia|lia|]. set (b2 := zero_slice _ _ b1) in *.
  destruct (set_slice_ok (n - nc) n (rev (tl f)) b2) as (c & -> & L3 & N3); [rewrite rev_length; destruct f; cbn in *; lia|lia|lia|]. cbn [rbind].
  exists c. split; [reflexivity|]. split; [lia|]. split.
  - intros i. destruct (le_lt_dec n i) as [L|L]; [right; apply nth_overflow; lia|].
    rewrite N3. destruct (Nat.leb_spec (n - nc) i); cbn [andb].
    + destruct (Nat.ltb_spec i n); [|lia]. rewrite rev_tl_nth by lia. left. apply nth_In. lia.
    + rewrite N2 by lia. destruct (Nat.leb_spec (nc + 1) i); cbn [andb].
      * destruct (Nat.ltb_spec i (n - nc)); [auto|lia].
      * rewrite N1. cbn [Nat.leb andb]. destruct (Nat.ltb_spec i (nc + 1)); [|lia]. left. apply nth_In. lia.
  - intros d Hd. split.
    + rewrite N3. destruct (Nat.leb_spec (n - nc) d); cbn [andb]; [lia|]. rewrite N2 by lia. destruct (Nat.leb_spec (nc + 1) d); cbn [andb].
      * destruct (Nat.ltb_spec d (n - nc)); [|lia]. symmetry. apply nth_overflow. lia.
      * rewrite N1. cbn [Nat.leb andb]. destruct (Nat.ltb_spec d (nc + 1)); [|lia]. rewrite Nat.sub_0_r. reflexivity.
    + intros Hd0. rewrite N3. destruct (Nat.leb_spec (n - nc) (n - d)); cbn [andb].
      * destruct (Nat.ltb_spec (n - d) n); [|lia]. rewrite rev_tl_nth by lia. f_equal. lia.
      * rewrite N2 by lia. destruct (Nat.leb_spec (nc + 1) (n - d)); cbn [andb]; [|lia].
        destruct (Nat.ltb_spec (n - d) (n - nc)); [|lia]. symmetry. apply nth_overflow. lia.
Qed.

(** ** one row *)
Lemma arr1 (v : vec) k : arr v [k] = nth k v r0.
Proof. reflexivity. Qed.
Lemma inside1 n (w : K) k : k < n -> Dft.inside (ax1 n w) [k].
Proof. intros. constructor; auto. Qed.
Lemma inside1_inv n (w : K) k : Dft.inside (ax1 n w) k -> exists i, k = [i] /\ i < n.
Proof. intros H. inversion H; subst. inversion H4; subst. exists y. auto. Qed.
Lemma all_on1 n (w : K) : all_on (ax1 n w).
Proof. repeat constructor. Qed.

Theorem row_ok (wf : nat -> K) ns nc n (buf f x : vec) kern : root n (wf n) -> 0 < ns -> 0 < nc -> ns + nc <= n -> length buf = n -> length f = nc + 1 -> length x = ns ->
  Forall is_real f -> Forall is_real x -> get_kernel (wf n) n nc buf f = Ok kern ->
  product ns (toeplitz f) x (row_direct wf ns nc n x kern).
Proof.
  intros R Hs Hc Hn Lb Lf Lx Rf Rx E. destruct (kernel_buffer n ns nc buf f (wf n)) as (c & E2 & Lc & C1 & C2); auto. rewrite E2 in E. injection E as <-.
  set (w := wf n) in *. set (d := ax1 n w). assert (Forall axis_ok d) as F by (constructor; [exact R|constructor]). pose proof (all_on1 n w) as O. fold d in O.
  assert (forall j, Dft.inside d j -> is_real (arr c j)) as Rc.
  { intros j Hj. unfold arr. destruct (C1 (hd 0 j)) as [H| ->]; [|apply conj_0]. rewrite Forall_forall in Rf. apply Rf, H. }
  unfold row_direct. fold w. replace ((2 * (nc + 1) - 1 - 1) / 2) with nc by (replace (2 * (nc + 1) - 1 - 1) with (nc * 2) by lia; rewrite Nat.div_mul; lia).
  set (xb := repeat r0 nc ++ x ++ repeat r0 (n - (nc + ns))).
  assert (length xb = n) as Lxb by (unfold xb; rewrite !app_length, !repeat_length; lia).
  assert (forall j, nth j xb r0 = if (nc <=? j) && (j <? nc + ns) then nth (j - nc) x r0 else r0) as Nxb.
  { intros j. unfold xb. destruct (Nat.leb_spec nc j); cbn [andb].
    - rewrite app_nth2 by (rewrite repeat_length; lia). rewrite repeat_length. destruct (Nat.ltb_spec j (nc + ns)); [apply app_nth1; lia|]. rewrite app_nth2 by lia. rewrite repeat_nth. destruct (_ <? _); auto.
    - rewrite app_nth1 by (rewrite repeat_length; lia). rewrite repeat_nth. destruct (_ <? _); auto. }
  assert (forall j, Dft.inside d j -> is_real (arr xb j)) as Rxb.
  { intros j Hj. unfold arr. rewrite Nxb. destruct (_ && _) eqn:B; [|apply conj_0]. apply andb_true_iff in B as [B1 B2]. apply Nat.leb_le in B1. apply Nat.ltb_lt in B2.
    rewrite Forall_forall in Rx. apply Rx, nth_In. lia. }
  set (g := fun j : list nat => rmul (ninv n) (rmul (ninv 2) (radd (arr c j) (arr c (negi d j))))).
  assert (forall j, Dft.inside d j -> is_real (g j)) as Rg.
  { intros j Hj. unfold is_real, g. rewrite !conj_mul, conj_add, !conj_ninv by lia. rewrite (Rc j Hj). pose proof (negi_inside d j F Hj) as HN. rewrite (Rc _ HN). reflexivity. }
  assert (forall k, Dft.inside d k -> fwd d g k = rmul (re (fwd d (arr c) k)) (ninv n)) as Fg.
  { intros k Hk. unfold re. rewrite <- (fwd_hermitian d (arr c) F O Rc k Hk). unfold fwd, g.
    rewrite (bsum_ext d _ (fun j => rmul (rmul (ninv n) (ninv 2)) (radd (rmul (chi d j k) (arr c j)) (rmul (chi d j k) (arr c (negi d j)))))) by (intros; ring).
    rewrite bsum_mul_l, bsum_add.
    rewrite <- (bsum_neg d (fun m => rmul (chi d m (negi d k)) (arr c m)) F).
    rewrite (bsum_ext d (fun l => rmul (chi d l k) (arr c (negi d l))) (fun m => rmul (chi d (negi d m) (negi d k)) (arr c (negi d m)))).
    - ring.
    - intros m Hm. f_equal. rewrite chi_neg by (auto using negi_inside). rewrite (chi_sym d m (negi d k)), chi_neg by auto. rewrite conj_conj. apply chi_sym. }
  set (h := map (fun p => rmul (fst p) (snd p)) (combine (fftw_r2c n w xb) (map (fun c0 => rmul (re c0) (ninv n)) (fftw_r2c n w c)))).
  assert (half_eq d (arr h) (fwd d (cconv d g (arr xb)))) as HE.
  { intros k Hk. destruct (inside1_inv _ _ _ Hk) as (i & -> & Hi). cbn [d ax1 a_n]. intros Hi2. fold (ax1 n w). fold d. rewrite fwd_conv by auto. rewrite Fg by auto. rewrite arr1. unfold h.
    rewrite combine_map_nth.
    - rewrite (nth_indep (map (fun c0 => rmul (re c0) (ninv n)) (fftw_r2c n w c)) r0 (rmul (re r0) (ninv n))) by (rewrite map_length; unfold fftw_r2c; rewrite map_length, seq_length; lia).
      rewrite (map_nth (fun c0 => rmul (re c0) (ninv n))). unfold fftw_r2c. rewrite !map_seq_nth by lia. fold d. ring.
    - unfold fftw_r2c. rewrite map_length, seq_length. lia.
    - rewrite map_length. unfold fftw_r2c. rewrite map_length, seq_length. lia. }
  assert (forall j, Dft.inside d j -> is_real (cconv d g (arr xb) j)) as RC.
  { intros j Hj. unfold is_real, cconv. rewrite conj_bsum. apply bsum_ext. intros l Hl. rewrite conj_mul. rewrite (Rxb l Hl). f_equal. apply Rg. apply addi_inside; auto. apply negi_inside; auto. }
  assert (length (fftw_c2r n w h) = n) as LR by (unfold fftw_c2r; rewrite map_length, seq_length; reflexivity).
  split; [rewrite firstn_length, skipn_length; lia|].
  intros i Hi. rewrite firstn_nth, skipn_nth. destruct (Nat.ltb_spec i ns); [|lia]. unfold fftw_c2r. rewrite map_seq_nth by lia. fold d.
  assert (Dft.inside d [nc + i]) as HI by (apply inside1; lia).
  rewrite (c2r_ext d _ _ _ F HE HI). rewrite (c2r_bwd d _ _ F O (fwd_hermitian d _ F O RC) HI). rewrite (bwd_fwd d _ _ F HI).
  assert (norm d = n) as -> by (unfold norm, d, ax1; cbn [fold_right a_on a_n]; lia).
  unfold cconv. cbn [d ax1 bsum a_n]. fold (ax1 n w). fold d.
  rewrite <- sum_mul_l. replace n with (nc + (ns + (n - nc - ns))) at 1 by lia. rewrite sum_split, sum_split.
  rewrite sum_zero. 2:{ intros j Hj. rewrite arr1, Nxb. destruct (Nat.leb_spec nc j); [lia|]. cbn [andb]. ring. }
  rewrite (sum_zero (n - nc - ns)). 2:{ intros j Hj. rewrite arr1, Nxb. destruct (Nat.ltb_spec (nc + (ns + j)) (nc + ns)); [lia|]. rewrite andb_false_r. ring. }
  rewrite radd_0_l, radd_0_r. apply sum_ext. intros j Hj. rewrite arr1, Nxb. destruct (Nat.leb_spec nc (nc + j)); [|lia]. destruct (Nat.ltb_spec (nc + j) (nc + ns)); [|lia]. cbn [andb].
  replace (nc + j - nc) with j by lia. rewrite rmul_assoc. f_equal. unfold g.
  assert (forall a : K, rmul (rnat n) (rmul (ninv n) (rmul (ninv 2) (radd a a))) = a) as Half.
  { intros a. transitivity (rmul (rmul (ninv n : K) (rnat n)) (rmul (rmul (ninv 2 : K) (rnat 2)) a)); [cbn [rnat]; ring|]. rewrite !ninv_ok by lia. ring. }
  assert (subi d [nc + i] [nc + j] = [if j <=? i then i - j else n - (j - i)]) as ->.
  { unfold subi, addi, negi, d, ax1. cbn [combine map a_n]. f_equal. rewrite Nat.add_mod_idemp_r by lia. destruct (Nat.leb_spec j i).
    - replace (nc + i + (n - (nc + j))) with (i - j + 1 * n) by lia. rewrite Nat.mod_add by lia. apply Nat.mod_small. lia.
    - replace (nc + i + (n - (nc + j))) with (n - (j - i)) by lia. apply Nat.mod_small. lia. }
  unfold toeplitz, negi, d, ax1. cbn [combine map a_n]. rewrite !arr1. destruct (Nat.leb_spec j i).
  - rewrite Nat.max_l, Nat.min_r by lia. destruct (C2 (i - j)) as [A1 A2]; [lia|]. destruct (Nat.eq_dec (i - j) 0) as [E0|E0].
    + rewrite E0 in *. rewrite Nat.sub_0_r, Nat.mod_same by lia. rewrite A1. apply Half.
    + rewrite Nat.mod_small by lia. rewrite A1, A2 by lia. apply Half.
  - rewrite Nat.max_r, Nat.min_l by lia. destruct (C2 (j - i)) as [A1 A2]; [lia|]. replace (n - (n - (j - i))) with (j - i) by lia. rewrite Nat.mod_small by lia. rewrite A1, A2 by lia. apply Half.
Qed.

(** ** all the rows *)
Lemma rmap_nth {A B} (f : A -> result B) l r : rmap f l = Ok r -> length r = length l /\ forall i a b, i < length l -> f (nth i l a) = Ok (nth i r b).
Proof.
  revert r. induction l as [|x l IH]; intros r E; cbn in E. { injection E as <-. split; auto. cbn. lia. }
  destruct (f x) as [b|] eqn:Ef; [|discriminate]. cbn in E. destruct (rmap f l) as [bs|] eqn:Er; [|discriminate]. injection E as <-. destruct (IH bs eq_refl) as [L N].
  split; [cbn; lia|]. intros [|i] a b0 Hi; cbn in *; auto. apply N. lia.
Qed.
Lemma upd_length {A} i (a : A) l : length (upd i a l) = length l.
Proof. unfold upd. rewrite <- (firstn_skipn i l) at 3. rewrite !app_length. f_equal. destruct (skipn i l); reflexivity. Qed.
Lemma upd_nth {A} i (a : A) l j d : i < length l -> nth j (upd i a l) d = if Nat.eqb j i then a else nth j l d.
Proof.
  intros H. unfold upd. revert l j H. induction i; intros [|b l] j H; cbn in H; try lia.
  - destruct j; reflexivity.
  - destruct j; cbn [firstn skipn app nth Nat.eqb]; auto. apply IHi. lia.
Qed.
Lemma fold_upd {A B} (g : A -> B) : forall (items : list A) k (outs : list B) d a0, k + length items <= length outs ->
  let r := fold_left (fun o (p : nat * A) => upd (fst p) (g (snd p)) o) (combine (seq k (length items)) items) outs in
  length r = length outs /\ forall j, nth j r d = if (k <=? j) && (j <? k + length items) then g (nth (j - k) items a0) else nth j outs d.
Proof.
  induction items as [|a items IH]; intros k outs d a0 H; cbn zeta.
  - cbn [length seq combine fold_left]. split; auto. intros j. destruct (Nat.leb_spec k j), (Nat.ltb_spec j (k + 0)); auto. lia.
  - cbn [length seq combine fold_left fst snd] in *. destruct (IH (S k) (upd k (g a) outs) d a0) as [L N]; [rewrite upd_length; lia|]. split; [rewrite L; apply upd_length|].
    intros j. rewrite N, upd_nth by lia. destruct (Nat.eqb_spec j k) as [->|Ne].
    + rewrite Nat.leb_refl. destruct (Nat.leb_spec (S k) k); [lia|]. destruct (Nat.ltb_spec k (k + S (length items))); [|lia]. cbn [andb]. rewrite Nat.sub_diag. reflexivity.
    + destruct (Nat.leb_spec (S k) j), (Nat.leb_spec k j); try lia; cbn [andb]; auto. replace (k + S (length items)) with (S k + length items) by lia. destruct (_ <? _); auto. replace (j - k) with (S (j - S k)) by lia. reflexivity.
Qed.
Lemma rep_id {A} (l : list A) : rep (length l) l = l.
Proof. destruct l as [|a [|b l]]; reflexivity. Qed.
Lemma rep_one {A} (a : A) n : rep n [a] = repeat a n.
Proof. reflexivity. Qed.
Lemma fold_items (g : vec -> vec -> vec) : forall (xs : list vec) (is : list nat) (ks : list vec) outs,
  length is = length xs -> length ks = length xs ->
  fold_left (fun o (p : vec * (nat * vec)) => let '(x, (i, k)) := p in upd i (g x k) o) (combine xs (combine is ks)) outs =
  fold_left (fun o (p : nat * (vec * vec)) => upd (fst p) ((fun q => g (fst q) (snd q)) (snd p)) o) (combine is (combine xs ks)) outs.
Proof.
  induction xs as [|x xs IH]; intros [|i is] [|k ks] outs L1 L2; cbn in *; try lia; auto; apply IH; lia.
Qed.

Lemma rep_nth {A} (l : list A) n i d : length l = 1 \/ length l = n -> i < n -> nth i (rep n l) d = match l with [a] => a | _ => nth i l d end.
Proof.
  intros L Hi. destruct l as [|a [|b l]]; auto. cbn [rep]. rewrite repeat_nth. destruct (Nat.ltb_spec i n); auto. lia.
Qed.
Lemma rep_length {A} (l : list A) n : length l = 1 \/ length l = n -> length (rep n l) = n.
Proof. intros L. destruct l as [|a [|b l]]; cbn [rep length] in *; try lia. apply repeat_length. Qed.

Theorem toeplitz_ok (w : nat -> K) pool ns (rows xs outs : list vec) op p : root (fftsize ns (p - 1)) (w (fftsize ns (p - 1))) -> (forall n, length (pool n) = n) ->
  0 < ns -> Forall (fun f => length f = p /\ Forall is_real f) rows -> Forall (fun x => length x = ns /\ Forall is_real x) xs ->
  length rows = 1 \/ length rows = length xs -> length outs = length xs -> make w pool ns rows = Ok op ->
  length (direct w op true xs outs) = length xs /\
  forall i, i < length xs -> product ns (toeplitz (row_of rows i)) (nth i xs []) (nth i (direct w op true xs outs) []).
Proof.
  intros R P Hs Fr Fx Lr Lo E. unfold make in E. destruct (length (hd [] rows)) as [|nc] eqn:Lh; [discriminate|].
  assert (rows <> []) as NE by (intros ->; discriminate).
  assert (p = S nc) as ->. { destruct rows as [|f rows]; [congruence|]. inversion Fr; subst. cbn in Lh. destruct H1. congruence. }
  destruct nc as [|nc]; injection E as E || idtac.
  - subst op. cbn [direct]. rewrite map_length, combine_length, rep_length by (rewrite map_length; lia). split; [lia|]. intros i Hi.
    assert (length (nth i xs []) = ns) as Lx by (rewrite Forall_forall in Fx; apply Fx, nth_In; auto).
    assert (length (row_of rows i) = 1) as Lf.
    { rewrite Forall_forall in Fr. apply Fr. unfold row_of. destruct rows as [|f [|g rows]]; [congruence|left; auto|apply nth_In; cbn in *; lia]. }
    set (data := map (fun f => hd r0 f) rows).
    assert (nth i (map (fun q : K * vec => map (rmul (fst q)) (snd q)) (combine (rep (length xs) data) xs)) [] = map (rmul (hd r0 (row_of rows i))) (nth i xs [])) as ->.
    { rewrite (nth_indep _ [] ((fun q : K * vec => map (rmul (fst q)) (snd q)) (r0, []))) by (rewrite map_length, combine_length, rep_length by (unfold data; rewrite map_length; lia); lia).
      rewrite (map_nth (fun q : K * vec => map (rmul (fst q)) (snd q))). rewrite combine_nth by (rewrite rep_length; auto; unfold data; rewrite map_length; lia). cbn [fst snd]. f_equal. f_equal.
      rewrite rep_nth by (auto; unfold data; rewrite map_length; lia). unfold data, row_of. destruct rows as [|f [|g rows]]; [congruence|reflexivity|]. cbn [map].
      change (hd r0 f :: hd r0 g :: map (fun f => hd r0 f) rows) with (map (fun f => hd r0 f) (f :: g :: rows)). rewrite (nth_indep _ r0 (hd r0 [])) by (rewrite map_length; cbn in *; lia). apply (map_nth (fun f => hd r0 f)). }
    destruct (row_of rows i) as [|a [|]]; try discriminate. cbn [hd]. split; [rewrite map_length; auto|]. intros j Hj.
    rewrite (nth_indep _ r0 (rmul a r0)) by (rewrite map_length; lia). rewrite map_nth. symmetry. rewrite (sum_single ns _ j); auto.
    + unfold toeplitz. rewrite Nat.max_id, Nat.min_id, Nat.sub_diag. reflexivity.
    + intros k Hk Ne. unfold toeplitz. rewrite nth_overflow by (cbn; lia). ring.
  - cbn [rbind] in E. set (n := fftsize ns (S nc)) in *. destruct (rmap _ rows) as [kern|] eqn:Ek; [|discriminate]. injection E as <-.
    apply rmap_nth in Ek as [Lk Nk]. cbn [direct].
    destruct xs as [|x0 xs']. { cbn [rep combine fold_left]. split; [auto|]. cbn [length]. lia. } remember (x0 :: xs') as xs eqn:Ex.
    assert (1 <= length xs) as L1 by (rewrite Ex; cbn; lia). clear Ex x0 xs'.
    assert (Nat.max (length xs) (Nat.max (length outs) (length kern)) = length xs) as -> by lia.
    rewrite rep_id. assert (rep (length xs) (seq 0 (length outs)) = seq 0 (length xs)) as ->.
    { rewrite <- Lo. rewrite <- (seq_length (length outs) 0) at 1. apply rep_id. }
    rewrite fold_items by (rewrite ?seq_length, ?rep_length; lia).
    set (ks := rep (length xs) kern). assert (length ks = length xs) as Lks by (apply rep_length; lia).
    assert (length (combine xs ks) = length xs) as Lc by (rewrite combine_length; lia).
    pose proof (fold_upd (fun q : vec * vec => row_direct w ns (S nc) n (fst q) (snd q)) (combine xs ks) 0 outs [] ([], [])) as FU. cbn zeta in FU. rewrite Lc in FU. destruct FU as [L2 N2]; [lia|].
    split; [etransitivity; [exact L2|exact Lo]|]. intros i Hi. rewrite N2. cbn [Nat.leb andb]. destruct (Nat.ltb_spec i (0 + length xs)); [|lia]. rewrite Nat.sub_0_r, combine_nth by auto. cbn [fst snd].
    assert (exists j, j < length rows /\ row_of rows i = nth j rows [] /\ nth i ks [] = nth j kern []) as (j & Hj & -> & ->).
    { unfold ks. rewrite rep_nth by (auto; lia). destruct rows as [|f [|g rows]]; [congruence| |].
      - exists 0. destruct kern as [|k0 [|]]; cbn in Lk; try discriminate. cbn. auto.
      - exists i. destruct kern as [|k0 [|]]; cbn in Lk; try discriminate. cbn [row_of]. cbn in *. split; [lia|auto]. }
    assert (length (nth j rows []) = S (S nc) /\ Forall is_real (nth j rows [])) as [Lf Rf] by (rewrite Forall_forall in Fr; apply Fr, nth_In; auto).
    assert (length (nth i xs []) = ns /\ Forall is_real (nth i xs [])) as [Lx Rx] by (rewrite Forall_forall in Fx; apply Fx, nth_In; auto).
    pose proof (fftsize_ge ns (S nc)) as G. fold n in G.
    apply row_ok with (buf := pool n); auto; try lia.
Qed.
Theorem make_total (w : nat -> K) pool ns (rows : list vec) p : (forall n, length (pool n) = n) -> 0 < ns -> 0 < p -> rows <> [] -> Forall (fun f => length f = p) rows ->
  exists op, make w pool ns rows = Ok op.
Proof.
  intros P Hs Hp NE F. unfold make. assert (length (hd [] rows) = p) as -> by (destruct F; [congruence|auto]). destruct p as [|[|nc]]; [lia|eauto|].
  pose proof (fftsize_ge ns (S nc)) as G. set (n := fftsize ns (S nc)) in *.
  assert (exists ks, rmap (fun f => get_kernel (w n) n (S nc) (pool n) f) rows = Ok ks) as [ks ->]; [|cbn; eauto].
  clear NE. induction F as [|f rows Lf F IH]; cbn [rmap]; [eauto|].
  destruct (kernel_buffer n ns (S nc) (pool n) f (w n)) as (c & -> & _); auto; try lia. cbn [rbind]. destruct IH as [ks ->]. cbn. eauto.
Qed.
End Proofs.
