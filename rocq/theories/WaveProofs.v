(** Proofs about the wavelet transforms *)
From Coq Require Import String Ascii Lia.
From Verif Require Import Base Algebra WaveModel WaveSpec.
Local Open Scope nat_scope.
Local Open Scope list_scope.

(** ** Packing *)
Lemma slice_mid {A} (p a q : list A) n : n = length p -> slice (p ++ a ++ q) n (n + length a) = a.
Proof.
  intros ->. unfold slice. replace (length p + length a - length p) with (length a) by lia.
  rewrite skipn_app, skipn_all, Nat.sub_diag. cbn [app skipn]. rewrite firstn_app, Nat.sub_diag, firstn_all, app_nil_r. reflexivity.
Qed.
Lemma cumsum_0 s l : nth 0 (cumsum s l) 0 = s.
Proof. destruct l; reflexivity. Qed.
Lemma slices {A} (c : list (list A)) : forall pre s, s = length pre ->
  map (fun i => slice (pre ++ concat c) (nth i (cumsum s (map (@length A) c)) 0) (nth (i + 1) (cumsum s (map (@length A) c)) 0)) (seq 0 (length c)) = c.
Proof.
  induction c as [|a c IH]; intros pre s E; [reflexivity|]. cbn [length seq map concat]. f_equal.
  - cbn [Nat.add cumsum nth]. rewrite cumsum_0. apply slice_mid, E.
  - rewrite <- seq_shift, map_map. refine (eq_trans _ (IH (pre ++ a) (s + length a) _)); [|rewrite app_length; lia].
    apply map_ext. intros i. rewrite <- app_assoc. reflexivity.
Qed.
Lemma pack_slices {A} (v : list A) (l : list nat) : length v = list_sum l ->
  exists c, v = concat c /\ map (@length A) c = l.
Proof.
  revert v. induction l as [|n l IH]; intros v E; cbn [list_sum fold_right] in E.
  - exists []. destruct v; [auto|discriminate].
  - change (fold_right Nat.add 0 l) with (list_sum l) in E. destruct (IH (skipn n v)) as [c [E1 E2]]; [rewrite skipn_length; lia|].
    exists (firstn n v :: c). cbn [concat map]. rewrite <- E1, firstn_skipn, E2, firstn_length. split; [reflexivity|]. f_equal. lia.
Qed.
Lemma length_concat {A} (c : list (list A)) : length (concat c) = list_sum (map (@length A) c).
Proof. induction c as [|a c IH]; [reflexivity|]. cbn [concat map list_sum fold_right]. rewrite app_length, IH. reflexivity. Qed.

(** ** Names *)
Lemma append_assoc (s t u : string) : String.append (String.append s t) u = String.append s (String.append t u).
Proof. induction s as [|a s IH]; [reflexivity|]. cbn. rewrite IH. reflexivity. Qed.
Lemma contains_spec s t : contains s t = true -> exists u v, t = String.append u (String.append s v).
Proof.
  assert (P : forall s t, String.prefix s t = true -> exists v, t = String.append s v).
  { clear. induction s as [|a s IH]; intros t H; [exists t; reflexivity|]. destruct t as [|b t]; [discriminate|]. cbn [String.prefix] in H.
    destruct (ascii_dec a b) as [<-|]; [|discriminate]. destruct (IH _ H) as [v ->]. exists v. reflexivity. }
  induction t as [|b t IH]; cbn [contains].
  - rewrite Bool.orb_false_r. intros H. destruct (P _ _ H) as [v E]. exists EmptyString, v. exact E.
  - intros H. apply Bool.orb_true_iff in H. destruct H as [H|H].
    + destruct (P _ _ H) as [v E]. exists EmptyString, v. exact E.
    + destruct (IH H) as (u & v & ->). exists (String b u), v. reflexivity.
Qed.
Lemma reverse_bior a b c : reverse_name (String.append "bior" (String a (String b (String c EmptyString)))) = String.append "rbio" (String a (String b (String c EmptyString))).
Proof. reflexivity. Qed.
Lemma reverse_rbio a b c : a <> "r"%char -> reverse_name (String.append "rbio" (String a (String b (String c EmptyString)))) = String.append "bior" (String a (String b (String c EmptyString))).
Proof.
  intros N. unfold reverse_name. replace (contains "bior" _) with false; [reflexivity|]. symmetry.
  apply Bool.not_true_is_false. intros H. apply contains_spec in H. destruct H as (u & v & E).
  destruct u as [|u1 [|u2 [|u3 [|u4 [|u5 [|u6 [|u7 [|u8 u]]]]]]]]; cbn in E; try discriminate E. apply N. congruence.
Qed.
Lemma reverse_other name : (forall s t, name <> String.append s (String.append "bior" t)) -> (forall s t, name <> String.append s (String.append "rbio" t)) -> reverse_name name = name.
Proof.
  intros A B. unfold reverse_name. destruct (contains "bior" name) eqn:E.
  { apply contains_spec in E. destruct E as (u & v & E). elim (A _ _ E). }
  destruct (contains "rbio" name) eqn:E'; [|reflexivity]. apply contains_spec in E'. destruct E' as (u & v & E'). elim (B _ _ E').
Qed.

Lemma nth_firstn_lt {A} (l : list A) n i d : i < n -> nth i (firstn n l) d = nth i l d.
Proof. revert n i. induction l as [|a l IH]; intros n i H; [rewrite firstn_nil; reflexivity|]. destruct n as [|n]; [lia|]. destruct i; [reflexivity|]. cbn [firstn nth]. apply IH. lia. Qed.
Lemma nth_skipn {A} (l : list A) n i d : nth i (skipn n l) d = nth (n + i) l d.
Proof. revert n. induction l as [|a l IH]; intros n; [rewrite skipn_nil; destruct i, n; reflexivity|]. destruct n as [|n]; [reflexivity|]. cbn [skipn Nat.add nth]. apply IH. Qed.
Section Wave.
Context {K : cring}.
Add Ring KringW : (rth K).
Local Open Scope cr_scope.
Local Open Scope nat_scope.
Notation "x [+] y" := (radd x y) (at level 50, left associativity).
Notation "x [*] y" := (rmul x y) (at level 40, left associativity).

(** ** Sizes *)
Definition half (f n : nat) : nat := (n + f - 1) / 2.
Lemma dwt_length m (f x : list K) : length (dwt m f x) = half (length f) (length x).
Proof. unfold dwt. rewrite map_length, seq_length. reflexivity. Qed.
Fixpoint dec_sizes (lo hi level n : nat) : list nat := match level with O => [n] | S l => dec_sizes lo hi l (half lo n) ++ [half hi n] end.
Lemma wavedec_sizes m (w : wavelet K) level : forall x, map (@length K) (wavedec m w level x) = dec_sizes (length (dec_lo w)) (length (dec_hi w)) level (length x).
Proof.
  induction level as [|l IH]; intros x; [reflexivity|]. cbn [wavedec dec_sizes]. rewrite map_app, IH. cbn [map]. rewrite !dwt_length. reflexivity.
Qed.
Lemma wavedec_same m (w : wavelet K) level x y : length x = length y -> map (@length K) (wavedec m w level x) = map (@length K) (wavedec m w level y).
Proof. intros E. rewrite !wavedec_sizes, E. reflexivity. Qed.

Lemma make_ok reg (w : wavelet K) m level n o : make reg w m level n = Ok o ->
  In (w_name w) (map w_name reg) /\ o = Op w (reverse_name (w_name w)) m level n (list_sum (o_sizes o)) (o_sizes o) (cumsum 0 (o_sizes o)) (w_orthogonal w)
  /\ o_sizes o = map (@length K) (wavedec m w level (repeat r0 n)).
Proof.
  unfold make, rwavelist. destruct (in_dec string_dec (w_name w) (map w_name reg)) as [I'|]; [|discriminate]. cbn [rbind]. intros E. injection E as <-. auto.
Qed.
Lemma vect2coeffs_concat (o : op K) c : o_cumsizes o = cumsum 0 (o_sizes o) -> map (@length K) c = o_sizes o -> vect2coeffs o (concat c) = c.
Proof.
  intros E1 E2. unfold vect2coeffs. rewrite E1, <- E2, map_length. exact (slices c [] 0 eq_refl).
Qed.
Lemma direct_ok reg (w : wavelet K) m level n o x : make reg w m level n = Ok o -> length x = n ->
  direct o x = Ok (concat (wavedec m w level x)) /\ length (concat (wavedec m w level x)) = o_shapeout o /\ vect2coeffs o (concat (wavedec m w level x)) = wavedec m w level x.
Proof.
  intros M L. destruct (make_ok _ _ _ _ _ _ M) as (_ & E & S).
  assert (Z : map (@length K) (wavedec m w level x) = o_sizes o) by (rewrite S; apply wavedec_same; rewrite repeat_length; exact L).
  assert (Lo : length (concat (wavedec m w level x)) = o_shapeout o) by (rewrite length_concat, Z, E; reflexivity).
  split; [|split; [exact Lo|]].
  - assert (E1 : o_mode o = m) by (rewrite E; reflexivity). assert (E2 : o_wavelet o = w) by (rewrite E; reflexivity). assert (E3 : o_level o = level) by (rewrite E; reflexivity).
    unfold direct, assign. rewrite E1, E2, E3, Lo, Nat.eqb_refl. reflexivity.
  - apply vect2coeffs_concat; [rewrite E; reflexivity|exact Z].
Qed.

(** ** One level *)
Lemma sum_delta n (f : nat -> K) (z : Z) : sum n (fun i => if (z =? Z.of_nat i)%Z then f i else r0) = if ((0 <=? z) && (z <? Z.of_nat n))%Z then f (Z.to_nat z) else r0.
Proof.
  destruct ((0 <=? z) && (z <? Z.of_nat n))%Z eqn:E.
  - rewrite (sum_single n _ (Z.to_nat z)).
    + rewrite Z2Nat.id by lia. rewrite Z.eqb_refl. reflexivity.
    + lia.
    + intros i Hi N. destruct (Z.eqb_spec z (Z.of_nat i)); [lia|reflexivity].
  - apply sum_zero. intros i Hi. destruct (Z.eqb_spec z (Z.of_nat i)); [lia|reflexivity].
Qed.
Lemma tap_delta (f : list K) z : tap f z = sum (length f) (fun i => if (z =? Z.of_nat i)%Z then nth i f r0 else r0).
Proof.
  rewrite sum_delta. unfold tap. destruct (Z.ltb_spec z 0); destruct (Z.leb_spec 0 z); try lia; cbn [andb]; [reflexivity|].
  destruct (Z.ltb_spec z (Z.of_nat (length f))); [reflexivity|]. apply nth_overflow. lia.
Qed.
Lemma zero_delta (x : list K) z : extended Zero x z = sum (length x) (fun n => if (z =? Z.of_nat n)%Z then nth n x r0 else r0).
Proof. rewrite sum_delta. unfold extended. reflexivity. Qed.
Lemma zero_convolution (f x : list K) z :
  sum (length f) (fun i => nth i f r0 [*] extended Zero x (z - Z.of_nat i)) = sum (length x) (fun n => nth n x r0 [*] tap f (z - Z.of_nat n)).
Proof.
  rewrite (sum_ext _ _ (fun i => sum (length x) (fun n => if (z =? Z.of_nat i + Z.of_nat n)%Z then nth i f r0 [*] nth n x r0 else r0))).
  2: { intros i _. rewrite zero_delta, <- sum_mul_l. apply sum_ext. intros n _. destruct (Z.eqb_spec (z - Z.of_nat i) (Z.of_nat n)); destruct (Z.eqb_spec z (Z.of_nat i + Z.of_nat n)); try lia; ring. }
  rewrite sum_swap. apply sum_ext. intros n _. rewrite tap_delta, <- sum_mul_l. apply sum_ext. intros i _.
  destruct (Z.eqb_spec (z - Z.of_nat n) (Z.of_nat i)); destruct (Z.eqb_spec z (Z.of_nat i + Z.of_nat n)); try lia; ring.
Qed.
Lemma tap_rev (f : list K) z : tap (rev f) z = tap f (Z.of_nat (length f) - 1 - z).
Proof.
  unfold tap. destruct (Z.ltb_spec z 0).
  - destruct (Z.ltb_spec (Z.of_nat (length f) - 1 - z) 0); [reflexivity|]. symmetry. apply nth_overflow. lia.
  - destruct (Z.ltb_spec (Z.of_nat (length f) - 1 - z) 0).
    + apply nth_overflow. rewrite rev_length. lia.
    + rewrite rev_nth by lia. f_equal. lia.
Qed.
Lemma ldot_sum (x y : list K) n : length x = n -> length y = n -> ldot x y = sum n (fun i => nth i x r0 [*] nth i y r0).
Proof.
  revert x y. induction n as [|n IH]; intros [|a x] [|b y] Lx Ly; try discriminate; [reflexivity|]. injection Lx as Lx. injection Ly as Ly.
  rewrite ldot_cons, sum_S_l. cbn [nth]. rewrite (IH x y Lx Ly). reflexivity.
Qed.
Lemma nth_dwt m (f x : list K) k : k < half (length f) (length x) -> nth k (dwt m f x) r0 = sum (length f) (fun i => nth i f r0 [*] extended m x (2 * Z.of_nat k + 1 - Z.of_nat i)).
Proof.
  intros H. unfold dwt. set (g := fun k : nat => _). rewrite (nth_indep _ r0 (g 0)) by (rewrite map_length, seq_length; exact H).
  rewrite map_nth, seq_nth by exact H. reflexivity.
Qed.
(** The synthesis at n with mirrored filters *)
Definition synthesis (w : wavelet K) (a d : list K) (n : nat) : K :=
  sum (length a) (fun k => nth k a r0 [*] tap (dec_lo w) (2 * Z.of_nat k + 1 - Z.of_nat n) [+] nth k d r0 [*] tap (dec_hi w) (2 * Z.of_nat k + 1 - Z.of_nat n)).
Lemma idwt_ok (w w' : wavelet K) a d : balanced w -> mirror w w' -> length a = length d ->
  idwt w' a d = Ok (map (synthesis w a d) (seq 0 (2 * length a + 2 - length (dec_lo w)))).
Proof.
  intros [B _] [M1 M2] L. unfold idwt. rewrite (proj2 (Nat.eqb_eq _ _) L). cbn [negb]. f_equal. rewrite M1, M2, rev_length. apply map_ext. intros n. unfold synthesis.
  apply sum_ext. intros k _. cbn zeta. rewrite !tap_rev, <- B.
  replace (Z.of_nat (length (dec_lo w)) - 1 - (Z.of_nat n + Z.of_nat (length (dec_lo w)) - 2 - 2 * Z.of_nat k))%Z with (2 * Z.of_nat k + 1 - Z.of_nat n)%Z by lia. reflexivity.
Qed.
Lemma synthesis_length f n : 0 < f -> 2 * half f n + 2 - f = n \/ 2 * half f n + 2 - f = S n.
Proof.
  intros E. unfold half. pose proof (Nat.div_mod (n + f - 1) 2). pose proof (Nat.mod_upper_bound (n + f - 1) 2). lia.
Qed.
Lemma firstn_map_seq {A} (g : nat -> A) n m : n <= m -> firstn n (map g (seq 0 m)) = map g (seq 0 n).
Proof. intros H. replace m with (n + (m - n)) by lia. rewrite seq_app, map_app, firstn_app, map_length, seq_length, Nat.sub_diag, app_nil_r. apply firstn_all2. rewrite map_length, seq_length. lia. Qed.
(** The approximation cropped if it has one element too many *)
Definition crop (d : nat) (a : list K) : list K := if length a =? S d then firstn d a else a.
Lemma crop_firstn n a : length a = n \/ length a = S n -> crop n a = firstn n a.
Proof. intros [E|E]; unfold crop; rewrite E; [|rewrite Nat.eqb_refl; reflexivity]. destruct (Nat.eqb_spec n (S n)); [lia|]. symmetry. apply firstn_all2. lia. Qed.
Lemma nth_map_seq (g : nat -> K) n k : k < n -> nth k (map g (seq 0 n)) r0 = g k.
Proof. intros H. rewrite (nth_indep _ r0 (g 0)) by (rewrite map_length, seq_length; exact H). rewrite map_nth, seq_nth by exact H. reflexivity. Qed.

(** Adjoint of one level *)
Lemma level_adjoint (w : wavelet K) (x a d : list K) : balanced w -> length a = half (length (dec_lo w)) (length x) -> length d = length a ->
  ldot (dwt Zero (dec_lo w) x) a [+] ldot (dwt Zero (dec_hi w) x) d = ldot x (map (synthesis w a d) (seq 0 (length x))).
Proof.
  intros [B _] La Ld. rewrite (ldot_sum (dwt Zero (dec_lo w) x) a (length a)) by (rewrite ?dwt_length; auto).
  rewrite (ldot_sum (dwt Zero (dec_hi w) x) d (length a)) by (rewrite ?dwt_length; rewrite <- ?B; auto).
  rewrite (ldot_sum x _ (length x)) by (rewrite ?map_length, ?seq_length; reflexivity). rewrite <- sum_add.
  rewrite (sum_ext (length x) _ (fun n => sum (length a) (fun k => nth n x r0 [*] (nth k a r0 [*] tap (dec_lo w) (2 * Z.of_nat k + 1 - Z.of_nat n) [+] nth k d r0 [*] tap (dec_hi w) (2 * Z.of_nat k + 1 - Z.of_nat n))))).
  2: { intros n Hn. rewrite nth_map_seq by exact Hn. unfold synthesis. rewrite sum_mul_l. reflexivity. }
  rewrite sum_swap. apply sum_ext. intros k Hk. rewrite !nth_dwt by (rewrite <- ?B; lia). rewrite !zero_convolution.
  rewrite <- !sum_mul_r, <- sum_add. apply sum_ext. intros n _. ring.
Qed.

(** Perfect reconstruction at one level *)
Lemma sum_longer (g : nat -> K) a b : (forall j, a <= j -> j < b -> g j = r0) -> (forall j, b <= j -> j < a -> g j = r0) -> sum a g = sum b g.
Proof.
  assert (W : forall a b, a <= b -> (forall j, a <= j -> j < b -> g j = r0) -> sum a g = sum b g).
  { intros a' b' L H. replace b' with (a' + (b' - a')) by lia. rewrite sum_split, (sum_zero (b' - a')); [ring|]. intros i Hi. apply H; lia. }
  intros H H'. destruct (Nat.le_gt_cases a b) as [L|L]; [apply W; assumption|]. symmetry. apply W; [lia|assumption].
Qed.
Lemma tap_neg (f : list K) z : (z < 0)%Z -> tap f z = r0.
Proof. intros H. unfold tap. destruct (Z.ltb_spec z 0); [reflexivity|lia]. Qed.
Lemma tap_large (f : list K) z : (Z.of_nat (length f) <= z)%Z -> tap f z = r0.
Proof. intros H. unfold tap. destruct (Z.ltb_spec z 0); [reflexivity|]. apply nth_overflow. lia. Qed.
(** The convolution as a sum over the elements of the extended signal *)
Lemma convolution_shift (f : list K) (g : Z -> K) (z s : Z) T : (s <= z - Z.of_nat (length f) + 1)%Z -> (z < s + Z.of_nat T)%Z ->
  sum (length f) (fun i => nth i f r0 [*] g (z - Z.of_nat i)%Z) = sum T (fun t => tap f (z - (s + Z.of_nat t)) [*] g (s + Z.of_nat t)%Z).
Proof.
  intros H1 H2.
  rewrite (sum_ext T _ (fun t => sum (length f) (fun i => if (z - (s + Z.of_nat t) =? Z.of_nat i)%Z then nth i f r0 [*] g (z - Z.of_nat i)%Z else r0))).
  2: { intros t _. rewrite tap_delta, <- sum_mul_r. apply sum_ext. intros i _. destruct (Z.eqb_spec (z - (s + Z.of_nat t)) (Z.of_nat i)) as [E|E]; [|ring].
       replace (z - Z.of_nat i)%Z with (s + Z.of_nat t)%Z by lia. ring. }
  rewrite sum_swap. apply sum_ext. intros i Hi.
  rewrite (sum_ext T _ (fun t => if (z - s - Z.of_nat i =? Z.of_nat t)%Z then nth i f r0 [*] g (z - Z.of_nat i)%Z else r0)).
  2: { intros t _. destruct (Z.eqb_spec (z - (s + Z.of_nat t)) (Z.of_nat i)); destruct (Z.eqb_spec (z - s - Z.of_nat i) (Z.of_nat t)); try lia; reflexivity. }
  rewrite sum_delta. replace ((0 <=? z - s - Z.of_nat i) && (z - s - Z.of_nat i <? Z.of_nat T))%Z with true by lia. reflexivity.
Qed.
Lemma nth_extended m (x : list K) n : n < length x -> extended m x (Z.of_nat n) = nth n x r0.
Proof. intros H. unfold extended. replace ((0 <=? Z.of_nat n) && (Z.of_nat n <? Z.of_nat (length x)))%Z with true by lia. rewrite Nat2Z.id. reflexivity. Qed.
Lemma filters_orthogonal (w : wavelet K) N n d : balanced w -> paraunitary w -> n < N ->
  sum (half (length (dec_lo w)) N) (fun k => let i := (2 * Z.of_nat k + 1 - Z.of_nat n)%Z in tap (dec_lo w) i [*] tap (dec_lo w) (i + d) [+] tap (dec_hi w) i [*] tap (dec_hi w) (i + d))
  = if (d =? 0)%Z then r1 else r0.
Proof.
  intros [B P] H Hn. set (F := length (dec_lo w)) in *. set (M := half F N).
  set (e := if Nat.even n then 1%Z else 0%Z). assert (He : (e = 0 \/ e = 1)%Z) by (unfold e; destruct (Nat.even n); auto).
  assert (C : exists c, (2 * Z.of_nat c = e + Z.of_nat n - 1)%Z).
  { unfold e. destruct (Nat.even n) eqn:Ev.
    - apply Nat.even_spec in Ev. destruct Ev as [c Ec]. exists c. lia.
    - assert (Od : Nat.odd n = true) by (unfold Nat.odd; rewrite Ev; reflexivity). apply Nat.odd_spec in Od. destruct Od as [c Ec]. exists c. lia. }
  destruct C as [c Hc].
  assert (HM : (2 * Z.of_nat M >= Z.of_nat N + Z.of_nat F - 2)%Z).
  { unfold M, half. pose proof (Nat.div_mod (N + F - 1) 2). pose proof (Nat.mod_upper_bound (N + F - 1) 2). lia. }
  assert (HcM : c <= M) by lia.
  replace M with (c + (M - c)) by lia. rewrite sum_split.
  rewrite (sum_zero c). 2: { intros k Hk. cbn zeta. rewrite !(tap_neg _ (2 * Z.of_nat k + 1 - Z.of_nat n)%Z) by lia. ring. }
  rewrite <- (H e d He). fold F.
  rewrite (sum_ext (M - c) _ (fun j => let i := (2 * Z.of_nat j + e)%Z in tap (dec_lo w) i [*] tap (dec_lo w) (i + d) [+] tap (dec_hi w) i [*] tap (dec_hi w) (i + d))).
  2: { intros j _. cbn zeta. replace (2 * Z.of_nat (c + j) + 1 - Z.of_nat n)%Z with (2 * Z.of_nat j + e)%Z by lia. reflexivity. }
  rewrite (sum_longer _ (M - c) F).
  - ring.
  - intros j L _. cbn zeta. rewrite !(tap_large _ (2 * Z.of_nat j + e)%Z) by (rewrite <- ?B; fold F; lia). ring.
  - intros j L _. cbn zeta. rewrite !(tap_large _ (2 * Z.of_nat j + e)%Z) by (rewrite <- ?B; fold F; lia). ring.
Qed.
Lemma level_reconstruction (w : wavelet K) m (x : list K) n : balanced w -> paraunitary w -> n < length x ->
  synthesis w (dwt m (dec_lo w) x) (dwt m (dec_hi w) x) n = nth n x r0.
Proof.
  intros [B P] H Hn. unfold synthesis. rewrite dwt_length. set (F := length (dec_lo w)) in *. set (M := half F (length x)).
  set (s := (Z.of_nat n - Z.of_nat F + 1)%Z). set (T := 2 * F).
  rewrite (sum_ext M _ (fun k => sum T (fun t => extended m x (s + Z.of_nat t) [*]
    (let i := (2 * Z.of_nat k + 1 - Z.of_nat n)%Z in let d := (Z.of_nat n - (s + Z.of_nat t))%Z in tap (dec_lo w) i [*] tap (dec_lo w) (i + d) [+] tap (dec_hi w) i [*] tap (dec_hi w) (i + d))))).
  2: { intros k Hk. rewrite !nth_dwt by (rewrite <- ?B; fold F; exact Hk). cbn zeta.
       destruct (Z.ltb_spec (2 * Z.of_nat k + 1 - Z.of_nat n) 0) as [Ng|Ng].
       { rewrite !(tap_neg _ (2 * Z.of_nat k + 1 - Z.of_nat n)%Z) by lia. rewrite (sum_zero T); [ring|]. intros t _. ring. }
       destruct (Z.leb_spec (Z.of_nat F) (2 * Z.of_nat k + 1 - Z.of_nat n)) as [Lg|Lg].
       { rewrite !(tap_large _ (2 * Z.of_nat k + 1 - Z.of_nat n)%Z) by (rewrite <- ?B; fold F; lia). rewrite (sum_zero T); [ring|]. intros t _. ring. }
       rewrite (convolution_shift (dec_lo w) (extended m x) (2 * Z.of_nat k + 1) s T) by (fold F; unfold s, T; lia).
       rewrite (convolution_shift (dec_hi w) (extended m x) (2 * Z.of_nat k + 1) s T) by (rewrite <- ?B; fold F; unfold s, T; lia).
       rewrite <- !sum_mul_r, <- sum_add. apply sum_ext. intros t _.
       replace (2 * Z.of_nat k + 1 - Z.of_nat n + (Z.of_nat n - (s + Z.of_nat t)))%Z with (2 * Z.of_nat k + 1 - (s + Z.of_nat t))%Z by lia. ring. }
  rewrite sum_swap.
  rewrite (sum_ext T _ (fun t => if (Z.of_nat (F - 1) =? Z.of_nat t)%Z then extended m x (s + Z.of_nat t) else r0)).
  2: { intros t _. rewrite sum_mul_l. pose proof (filters_orthogonal w (length x) n (Z.of_nat n - (s + Z.of_nat t)) (conj B P) H Hn) as FO. cbn zeta in *. fold F in FO. fold M in FO. rewrite FO.
       destruct (Z.eqb_spec (Z.of_nat n - (s + Z.of_nat t)) 0); destruct (Z.eqb_spec (Z.of_nat (F - 1)) (Z.of_nat t)); unfold s in *; try lia; ring. }
  rewrite sum_delta. replace ((0 <=? Z.of_nat (F - 1)) && (Z.of_nat (F - 1) <? Z.of_nat T))%Z with true by (unfold T; symmetry; apply Bool.andb_true_iff; split; [apply Z.leb_le|apply Z.ltb_lt]; lia).
  rewrite Nat2Z.id. replace (s + Z.of_nat (F - 1))%Z with (Z.of_nat n) by (unfold s; lia). apply nth_extended, Hn.
Qed.

(** ** All levels *)
Lemma recompose_snoc (w : wavelet K) ds d : forall a, recompose w a (ds ++ [d]) = (v <- recompose w a ds ;; idwt w (crop (length d) v) d).
Proof.
  induction ds as [|d' ds IH]; intros a; cbn [app recompose].
  - cbn [rbind]. unfold crop. destruct (idwt w _ d); reflexivity.
  - destruct (idwt w _ d'); cbn [rbind]; [apply IH|reflexivity].
Qed.
Lemma waverec_snoc (w : wavelet K) c d : c <> [] -> waverec w (c ++ [d]) = (v <- waverec w c ;; idwt w (crop (length d) v) d).
Proof. destruct c as [|a ds]; [congruence|]. intros _. apply recompose_snoc. Qed.
Lemma wavedec_nonempty m (w : wavelet K) level x : wavedec m w level x <> [].
Proof. destruct level; cbn [wavedec]; [discriminate|]. intros E. apply app_eq_nil in E. destruct E; discriminate. Qed.
Lemma dec_sizes_nonempty f g level n : dec_sizes f g level n <> [].
Proof. destruct level; cbn [dec_sizes]; [discriminate|]. intros E. apply app_eq_nil in E. destruct E; discriminate. Qed.
Lemma seq_synthesis_length (g : nat -> K) m : length (map g (seq 0 m)) = m.
Proof. rewrite map_length, seq_length. reflexivity. Qed.
Lemma map_nth_seq (l : list K) : map (fun k => nth k l r0) (seq 0 (length l)) = l.
Proof. induction l as [|x l IH]; [reflexivity|]. cbn [length seq map nth]. f_equal. rewrite <- seq_shift, map_map. exact IH. Qed.

Lemma levels_reconstruction (w w' : wavelet K) m level : balanced w -> mirror w w' -> paraunitary w -> forall x,
  exists v, waverec w' (wavedec m w level x) = Ok v /\ (length v = length x \/ length v = S (length x)) /\ firstn (length x) v = x.
Proof.
  intros B M P. induction level as [|l IH]; intros x; cbn [wavedec].
  - exists x. split; [reflexivity|]. split; [left; reflexivity|]. apply firstn_all.
  - destruct (IH (dwt m (dec_lo w) x)) as (v & E & L & C). rewrite waverec_snoc by apply wavedec_nonempty. rewrite E. cbn [rbind].
    replace (length (dwt m (dec_hi w) x)) with (length (dwt m (dec_lo w) x)) by (rewrite !dwt_length; rewrite (proj1 B); reflexivity).
    rewrite (crop_firstn _ _ L), C. rewrite (idwt_ok w w' _ _ B M) by (rewrite !dwt_length, (proj1 B); reflexivity).
    eexists. split; [reflexivity|]. rewrite seq_synthesis_length, dwt_length. pose proof (synthesis_length (length (dec_lo w)) (length x) (proj2 B)) as S'. split; [exact S'|].
    rewrite firstn_map_seq by lia. rewrite <- (map_nth_seq x) at 4. apply map_ext_in. intros n I'. apply in_seq in I'. apply level_reconstruction; [exact B|exact P|lia].
Qed.
Lemma concat_snoc {A} (c : list (list A)) d : concat (c ++ [d]) = concat c ++ d.
Proof. rewrite concat_app. cbn [concat]. rewrite app_nil_r. reflexivity. Qed.
Lemma levels_adjoint (w w' : wavelet K) level : balanced w -> mirror w w' -> forall x c, map (@length K) c = dec_sizes (length (dec_lo w)) (length (dec_hi w)) level (length x) ->
  exists v, waverec w' c = Ok v /\ (length v = length x \/ length v = S (length x)) /\ ldot (concat (wavedec Zero w level x)) (concat c) = ldot x (firstn (length x) v).
Proof.
  intros B M. induction level as [|l IH]; intros x c S'; cbn [wavedec].
  - cbn [dec_sizes] in S'. destruct c as [|a [|]]; try discriminate. injection S' as L. exists a. split; [reflexivity|]. split; [left; exact L|].
    cbn [concat]. rewrite !app_nil_r, <- L, firstn_all. reflexivity.
  - cbn [dec_sizes] in S'. destruct (exists_last (l := c)) as (c0 & d & ->).
    { intros ->. cbn in S'. symmetry in S'. apply app_eq_nil in S'. destruct S'; discriminate. }
    rewrite map_app in S'. cbn [map] in S'. apply app_inj_tail in S'. destruct S' as [S0 Sd].
    destruct (IH (dwt Zero (dec_lo w) x) c0) as (v & E & L & A); [rewrite dwt_length; exact S0|].
    assert (N : c0 <> []) by (intros ->; cbn in S0; exact (dec_sizes_nonempty _ _ _ _ (eq_sym S0))).
    rewrite waverec_snoc by exact N. rewrite E. cbn [rbind].
    assert (Ld : length d = length (dwt Zero (dec_lo w) x)) by (rewrite dwt_length, Sd, (proj1 B); reflexivity).
    rewrite Ld, (crop_firstn _ _ L). set (a := firstn _ v) in *.
    assert (La : length a = length (dwt Zero (dec_lo w) x)) by (unfold a; rewrite firstn_length; lia).
    rewrite (idwt_ok w w' _ _ B M) by congruence. eexists. split; [reflexivity|].
    rewrite seq_synthesis_length, La, dwt_length. pose proof (synthesis_length (length (dec_lo w)) (length x) (proj2 B)) as S'. split; [exact S'|].
    rewrite firstn_map_seq by lia. rewrite <- (level_adjoint w x a d B); [|rewrite La, dwt_length; reflexivity|congruence].
    rewrite !concat_snoc, ldot_app, A; [reflexivity|]. rewrite !length_concat, wavedec_sizes, S0, dwt_length. reflexivity.
Qed.
Lemma pywt_found reg name (w : wavelet K) : pywt_wavelet reg name = Ok w -> In w reg /\ w_name w = name.
Proof. unfold pywt_wavelet. destruct (find _ reg) as [w0|] eqn:E; [|discriminate]. intros H. injection H as <-. apply find_some in E. destruct E as [I' E]. apply String.eqb_eq in E. auto. Qed.
Lemma assign_exact n (v : list K) : length v = n -> assign n v = Ok v.
Proof. intros L. unfold assign. rewrite L, Nat.eqb_refl. reflexivity. Qed.

Lemma transpose_adjoint reg (w w' : wavelet K) level n o y : make reg w Zero level n = Ok o -> balanced w -> pywt_wavelet reg (o_rwavelet o) = Ok w' -> mirror w w' -> length y = o_shapeout o ->
  exists z, transpose reg o y = Ok z /\ length z = n /\ forall x u, length x = n -> direct o x = Ok u -> ldot u y = ldot x z.
Proof.
  intros Mk B R M L. destruct (make_ok _ _ _ _ _ _ Mk) as (_ & E & S').
  assert (Lo : length y = list_sum (o_sizes o)) by (rewrite L, E; reflexivity).
  destruct (pack_slices y (o_sizes o) Lo) as (c & Ey & Sc).
  assert (Ev : vect2coeffs o y = c) by (rewrite Ey; apply vect2coeffs_concat; [rewrite E; reflexivity|exact Sc]).
  assert (En : o_shapein o = n) by (rewrite E; reflexivity).
  assert (Sn : forall x : list K, length x = n -> map (@length K) c = dec_sizes (length (dec_lo w)) (length (dec_hi w)) level (length x)).
  { intros x Lx. rewrite Sc, S', wavedec_sizes, repeat_length, Lx. reflexivity. }
  destruct (levels_adjoint w w' level B M (repeat r0 n) c (Sn _ (repeat_length _ _))) as (v & Wv & Lv & _). rewrite repeat_length in Lv.
  unfold transpose. rewrite R. cbn [rbind]. rewrite Ev, Wv. cbn [rbind]. rewrite En.
  assert (Lz : length (firstn n v) = n) by (rewrite firstn_length; lia).
  rewrite (assign_exact _ _ Lz). exists (firstn n v). split; [reflexivity|]. split; [exact Lz|]. intros x u Lx D.
  destruct (direct_ok _ _ _ _ _ _ _ Mk Lx) as (D' & _). rewrite D' in D. injection D as <-.
  destruct (levels_adjoint w w' level B M x c (Sn x Lx)) as (v' & Wv' & _ & A). rewrite Wv in Wv'. injection Wv' as <-. rewrite Ey, A, Lx. reflexivity.
Qed.
Lemma transpose_direct reg (w w' : wavelet K) m level n o x : make reg w m level n = Ok o -> balanced w -> pywt_wavelet reg (o_rwavelet o) = Ok w' -> mirror w w' -> paraunitary w -> length x = n ->
  (y <- direct o x ;; transpose reg o y) = Ok x.
Proof.
  intros Mk B R M P L. destruct (direct_ok _ _ _ _ _ _ _ Mk L) as (D & _ & V). rewrite D. cbn [rbind]. unfold transpose. rewrite R. cbn [rbind]. rewrite V.
  destruct (levels_reconstruction w w' m level B M P x) as (v & W & _ & F). rewrite W. cbn [rbind].
  destruct (make_ok _ _ _ _ _ _ Mk) as (_ & E & _). assert (En : o_shapein o = n) by (rewrite E; reflexivity). rewrite En, <- L, F. apply assign_exact. reflexivity.
Qed.

(** ** Two dimensions *)
Lemma flat_map_shapes (d : list (array2 K)) : length d = 3 -> map (fun i => shape2 (third d i)) (seq 0 3) = map shape2 d /\ flat_map (fun i => a_data (third d i)) (seq 0 3) = concat (map a_data d).
Proof. destruct d as [|a [|b [|c [|]]]]; try discriminate. intros _. split; reflexivity. Qed.
Definition arrays (c : coeffs2 K) : list (array2 K) := c_approx c :: concat (c_details c).
Lemma coeffs2vect2_concat (c : coeffs2 K) : good_coeffs c -> coeffs2vect2 c = concat (map a_data (arrays c)).
Proof.
  intros [_ G]. unfold coeffs2vect2, arrays. cbn [map concat]. f_equal. induction G as [|d ds [L _] _ IH]; [reflexivity|]. cbn [flat_map concat map].
  rewrite (proj2 (flat_map_shapes d L)), IH, map_app, concat_app. reflexivity.
Qed.
Lemma shapes_concat (c : coeffs2 K) : good_coeffs c -> flat_map (fun d => map (fun i => shape2 (third d i)) (seq 0 3)) (c_details c) = map shape2 (concat (c_details c)).
Proof. intros [_ G]. induction G as [|d ds [L _] _ IH]; [reflexivity|]. cbn [flat_map concat]. rewrite (proj1 (flat_map_shapes d L)), IH, map_app. reflexivity. Qed.

Lemma collect_ok {A B} (f : A -> B) l : collect (map (fun x => Ok (f x)) l) = Ok (map f l).
Proof. induction l as [|a l IH]; [reflexivity|]. cbn [map collect rbind]. rewrite IH. reflexivity. Qed.
Lemma collect_ext {A B} (f g : A -> result B) l : (forall x, In x l -> f x = g x) -> collect (map f l) = collect (map g l).
Proof. intros H. f_equal. apply map_ext_in, H. Qed.
Lemma range3_ok m : forall fuel s, m <= fuel -> range3 fuel s (s + 3 * m) = map (fun k => s + 3 * k) (seq 0 m).
Proof.
  induction m as [|m IH]; intros fuel s L.
  - destruct fuel; [reflexivity|]. cbn [range3]. destruct (Nat.ltb_spec s (s + 3 * 0)); [lia|reflexivity].
  - destruct fuel as [|fuel]; [lia|]. cbn [range3]. destruct (Nat.ltb_spec s (s + 3 * S m)); [|lia]. cbn [seq map]. f_equal; [lia|].
    rewrite <- seq_shift, map_map. replace (s + 3 * S m) with (s + 3 + 3 * m) by lia. rewrite IH by lia. apply map_ext. intros k. lia.
Qed.
Lemma groups {A} (d0 : A) (ds : list (list A)) : Forall (fun d => length d = 3) ds -> forall a,
  map (fun i => map (fun j => nth (i + j) (a :: concat ds) d0) (seq 0 3)) (map (fun k => 1 + 3 * k) (seq 0 (length ds))) = ds.
Proof.
  intros H. induction H as [|d ds L H IH]; intros a; [reflexivity|]. destruct d as [|x [|y [|z [|]]]]; try discriminate. cbn [length seq]. rewrite <- seq_shift. cbn [map]. f_equal.
  refine (eq_trans _ (IH z)). rewrite !map_map. apply map_ext. intros k. cbn [seq map concat app].
  replace (1 + 3 * S k) with (S (S (S (1 + 3 * k)))) by lia. reflexivity.
Qed.
Lemma concat_length3 {A} (ds : list (list A)) : Forall (fun d => length d = 3) ds -> length (concat ds) = 3 * length ds.
Proof. intros H. induction H as [|d ds L _ IH]; [reflexivity|]. cbn [concat length]. rewrite app_length. lia. Qed.
Lemma good_three (c : coeffs2 K) : good_coeffs c -> Forall (fun d => length d = 3) (c_details c).
Proof. intros [_ G]. revert G. apply Forall_impl. tauto. Qed.
Lemma good_arrays (c : coeffs2 K) : good_coeffs c -> Forall good2 (arrays c).
Proof. intros [G1 G2]. constructor; [exact G1|]. induction G2 as [|d ds [_ G] _ IH]; [constructor|]. cbn [concat]. apply Forall_app. auto. Qed.
Lemma same_arrays (c c' : coeffs2 K) : same_shapes c c' -> map shape2 (arrays c) = map shape2 (arrays c').
Proof. intros [E1 E2]. unfold arrays. cbn [map]. rewrite E1. f_equal. rewrite !concat_map, E2. reflexivity. Qed.
Definition size2 (s : nat * nat) : nat := fst s * snd s.
Lemma good_sizes (l : list (array2 K)) : Forall good2 l -> map (@length K) (map a_data l) = map size2 (map shape2 l).
Proof. intros H. induction H as [|a l G _ IH]; [reflexivity|]. cbn [map]. rewrite IH. f_equal. exact G. Qed.
Lemma unpack2 (o : op2) (c : coeffs2 K) : good_coeffs c -> p_shapes o = map shape2 (arrays c) -> p_sizes o = map size2 (p_shapes o) -> p_cumsizes o = cumsum 0 (p_sizes o) ->
  vect2coeffs2 o (coeffs2vect2 c) = Ok c.
Proof.
  intros G Es Ez Ec. rewrite (coeffs2vect2_concat c G). pose proof (good_arrays c G) as GA. pose proof (good_sizes _ GA) as GS.
  pose proof (slices (map a_data (arrays c)) [] 0 eq_refl) as SL. cbn [app] in SL. rewrite GS, <- Es, <- Ez, <- Ec, map_length in SL.
  set (v := concat (map a_data (arrays c))) in *. set (e := Array2 0 0 [] : array2 K).
  assert (SN : forall i, i < length (arrays c) -> reshape2 (nth i (p_shapes o) (0, 0)) (slice v (nth i (p_cumsizes o) 0) (nth (i + 1) (p_cumsizes o) 0)) = Ok (nth i (arrays c) e)).
  { intros i Hi. replace (slice v (nth i (p_cumsizes o) 0) (nth (i + 1) (p_cumsizes o) 0)) with (a_data (nth i (arrays c) e)).
    - replace (nth i (p_shapes o) (0, 0)) with (shape2 (nth i (arrays c) e)) by (rewrite Es; rewrite <- (map_nth shape2); reflexivity).
      rewrite Forall_forall in GA. pose proof (GA _ (nth_In (arrays c) e Hi)) as Gi. unfold reshape2, shape2. cbn [fst snd]. rewrite Gi, Nat.eqb_refl. destruct (nth i (arrays c) e). reflexivity.
    - apply (f_equal (fun l => nth i l [])) in SL. rewrite <- (map_nth a_data) in *. change (a_data e) with (@nil K). rewrite <- SL.
      set (g := fun i0 : nat => _). rewrite (nth_indep _ [] (g 0)) by (rewrite map_length, seq_length; exact Hi). rewrite map_nth, seq_nth by exact Hi. reflexivity. }
  assert (LA : length (arrays c) = 1 + 3 * length (c_details c)) by (unfold arrays; cbn [length]; rewrite (concat_length3 _ (good_three c G)); lia).
  assert (LS : length (p_sizes o) = 1 + 3 * length (c_details c)) by (rewrite Ez, Es, !map_length; exact LA).
  unfold vect2coeffs2.
  replace (firstn (nth 0 (p_sizes o) 0) v) with (slice v (nth 0 (p_cumsizes o) 0) (nth (0 + 1) (p_cumsizes o) 0)).
  2: { rewrite Ec. destruct (p_sizes o) as [|n l] eqn:En; [cbn in LS; lia|]. cbn [Nat.add cumsum nth]. rewrite cumsum_0. unfold slice. rewrite Nat.sub_0_r. reflexivity. }
  rewrite (SN 0) by lia. cbn [rbind]. rewrite LS, range3_ok by lia.
  rewrite (collect_ext _ (fun i => Ok (map (fun j => nth (i + j) (arrays c) e) (seq 0 3)))).
  - rewrite collect_ok. cbn [rbind]. unfold arrays. rewrite (groups e _ (good_three c G)). destruct c; reflexivity.
  - intros i I'. apply in_map_iff in I'. destruct I' as (k & <- & Hk). apply in_seq in Hk.
    rewrite (collect_ext _ (fun j => Ok (nth (1 + 3 * k + j) (arrays c) e))); [apply collect_ok|]. intros j Hj. apply in_seq in Hj. apply SN. lia.
Qed.
Lemma make2_ok wavedec2 (s : nat * nat) c0 : wavedec2 (Array2 (fst s) (snd s) (repeat r0 (fst s * snd s))) = c0 -> good_coeffs c0 ->
  let o := make2 (K := K) wavedec2 s in p_shapes o = map shape2 (arrays c0) /\ p_sizes o = map size2 (p_shapes o) /\ p_cumsizes o = cumsum 0 (p_sizes o) /\ p_shapeout o = list_sum (p_sizes o) /\ p_shapein o = s.
Proof.
  intros E G. cbn zeta. unfold make2. rewrite E. cbn [p_shapes p_sizes p_cumsizes p_shapeout p_shapein]. rewrite (shapes_concat c0 G).
  split; [reflexivity|]. split; [reflexivity|]. split; [reflexivity|]. split; reflexivity.
Qed.
Lemma vect2_length (c : coeffs2 K) : good_coeffs c -> length (coeffs2vect2 c) = list_sum (map size2 (map shape2 (arrays c))).
Proof. intros G. rewrite (coeffs2vect2_concat c G), length_concat, (good_sizes _ (good_arrays c G)). reflexivity. Qed.
(** Any vector of the right size is made of coefficients *)
Lemma fill_arrays (l' : list (array2 K)) : forall v : list K, length v = list_sum (map size2 (map shape2 l')) -> exists l, map shape2 l = map shape2 l' /\ Forall good2 l /\ concat (map a_data l) = v.
Proof.
  induction l' as [|a l' IH]; intros v L; cbn [map list_sum fold_right] in L.
  - destruct v; [|discriminate]. exists []. auto.
  - change (fold_right Nat.add 0 (map size2 (map shape2 l'))) with (list_sum (map size2 (map shape2 l'))) in L. set (n := size2 (shape2 a)) in *.
    destruct (IH (skipn n v)) as (l & E & G & C); [rewrite skipn_length; lia|].
    exists (Array2 (a_rows a) (a_cols a) (firstn n v) :: l). split; [cbn [map]; rewrite E; reflexivity|]. split.
    + constructor; [|exact G]. unfold good2. cbn [a_data a_rows a_cols]. rewrite firstn_length. unfold n, size2, shape2 in *. cbn [fst snd] in *. lia.
    + cbn [map concat a_data]. rewrite C, firstn_skipn. reflexivity.
Qed.
Lemma fill_details (ds' : list (list (array2 K))) : Forall (fun d => length d = 3) ds' -> forall v : list K, length v = list_sum (map size2 (map shape2 (concat ds'))) ->
  exists ds, map (map shape2) ds = map (map shape2) ds' /\ Forall (fun d => length d = 3 /\ Forall good2 d) ds /\ concat (map a_data (concat ds)) = v.
Proof.
  intros H. induction H as [|d ds' L3 _ IH]; intros v L; cbn [concat] in L.
  - destruct v; [|discriminate]. exists []. auto.
  - rewrite !map_app, list_sum_app in L. set (n := list_sum (map size2 (map shape2 d))) in *.
    destruct (fill_arrays d (firstn n v)) as (d1 & E1 & G1 & C1); [rewrite firstn_length; fold n; lia|].
    destruct (IH (skipn n v)) as (ds & E & G & C); [rewrite skipn_length; lia|].
    exists (d1 :: ds). split; [cbn [map]; rewrite E1, E; reflexivity|]. split.
    + constructor; [|exact G]. split; [|exact G1]. rewrite <- L3. rewrite <- (map_length shape2 d1), E1, map_length. reflexivity.
    + cbn [concat]. rewrite map_app, concat_app, C1, C, firstn_skipn. reflexivity.
Qed.
Lemma fill (c' : coeffs2 K) (v : list K) : good_coeffs c' -> length v = list_sum (map size2 (map shape2 (arrays c'))) -> exists c, good_coeffs c /\ same_shapes c c' /\ coeffs2vect2 c = v.
Proof.
  intros G L. unfold arrays in L. cbn [map list_sum fold_right] in L. change (fold_right Nat.add 0 (map size2 (map shape2 (concat (c_details c'))))) with (list_sum (map size2 (map shape2 (concat (c_details c'))))) in L.
  set (n := size2 (shape2 (c_approx c'))) in *.
  destruct (fill_arrays [c_approx c'] (firstn n v)) as (l & E1 & G1 & C1); [cbn [map list_sum fold_right]; rewrite firstn_length; fold n; lia|].
  destruct l as [|a [|]]; try discriminate. cbn [map] in E1. injection E1 as E1 E1'. cbn [map concat] in C1. rewrite app_nil_r in C1.
  destruct (fill_details (c_details c') (good_three c' G) (skipn n v)) as (ds & E & G2 & C); [rewrite skipn_length; lia|].
  assert (GC : good_coeffs (Coeffs2 a ds)) by (split; [exact (Forall_inv G1)|exact G2]).
  exists (Coeffs2 a ds). split; [exact GC|]. split.
  - split; [unfold shape2; cbn [c_approx]; congruence|exact E].
  - rewrite (coeffs2vect2_concat _ GC). unfold arrays. cbn [map concat c_approx c_details]. rewrite C1, C. apply firstn_skipn.
Qed.
(** The scalar product of the coefficients is that of the vectors *)
Lemma ldot_arrays (l l' : list (array2 K)) : Forall good2 l -> Forall good2 l' -> map shape2 l = map shape2 l' ->
  ldot (concat (map a_data l)) (concat (map a_data l')) = lsum (map (fun q => ldot (a_data (fst q)) (a_data (snd q))) (combine l l')).
Proof.
  intros G. revert l'. induction G as [|a l Ga G IH]; intros [|b l'] G' E; try discriminate; [reflexivity|]. inversion G' as [|b' l0 Gb Gl]; subst. cbn [map] in E. injection E as E1 E2 E3.
  cbn [map concat combine]. rewrite lsum_cons, ldot_app; [|unfold good2 in *; congruence]. cbn [fst snd]. rewrite IH by assumption. reflexivity.
Qed.
Lemma arrays_length (l l' : list (array2 K)) : Forall good2 l -> Forall good2 l' -> map shape2 l = map shape2 l' -> length (concat (map a_data l)) = length (concat (map a_data l')).
Proof. intros G G' E. rewrite !length_concat, !good_sizes, E by assumption. reflexivity. Qed.
Lemma ldot_coeffs (c c' : coeffs2 K) : good_coeffs c -> good_coeffs c' -> same_shapes c c' -> ldot (coeffs2vect2 c) (coeffs2vect2 c') = pairing c c'.
Proof.
  intros G G' [E1 E2]. rewrite !coeffs2vect2_concat by assumption. unfold arrays, pairing. cbn [map concat].
  rewrite ldot_app. 2: { destruct G as [G _], G' as [G' _]. unfold good2 in *. injection E1 as E1 E1'. congruence. }
  f_equal. destruct G as [_ G], G' as [_ G']. revert E2 G'. generalize (c_details c'). induction G as [|d ds [_ Gd] G IH]; intros [|d' ds'] E2 G'; try discriminate; [reflexivity|].
  cbn [map] in E2. injection E2 as E2 E3. inversion G' as [|d0 ds0 [_ Gd'] Gds']; subst.
  cbn [concat combine map]. rewrite lsum_cons, !map_app, !concat_app, ldot_app by (apply arrays_length; assumption). cbn [fst snd].
  rewrite (ldot_arrays d d') by assumption. rewrite (IH ds') by assumption. reflexivity.
Qed.

Lemma rows_nth (g : nat -> list K) m : forall n, (forall i, i < n -> length (g i) = m) -> length (flat_map g (seq 0 n)) = n * m /\ forall i j, i < n -> j < m -> nth (i * m + j) (flat_map g (seq 0 n)) r0 = nth j (g i) r0.
Proof.
  induction n as [|n IH]; intros H.
  - split; [reflexivity|]. intros i j Hi. lia.
  - rewrite seq_S, flat_map_app. cbn [Nat.add flat_map]. rewrite app_nil_r. destruct (IH (fun i Hi => H i (Nat.lt_lt_succ_r _ _ Hi))) as [L N]. split.
    + rewrite app_length, L, H by lia. lia.
    + intros i j Hi Hj. destruct (Nat.eq_dec i n) as [->|Ne].
      * rewrite app_nth2 by (rewrite L; lia). rewrite L. f_equal. lia.
      * rewrite app_nth1 by (rewrite L; nia). apply N; lia.
Qed.
Lemma crop2_ok (s : nat * nat) (a z : array2 K) : good2 a -> crop2 s a = Ok z ->
  shape2 z = s /\ good2 z /\ forall i j, i < fst s -> j < snd s -> element2 z i j = element2 a i j.
Proof.
  intros G. unfold crop2. destruct (Nat.leb_spec (fst s) (a_rows a)) as [L1|]; [|discriminate]. destruct (Nat.leb_spec (snd s) (a_cols a)) as [L2|]; [|discriminate]. cbn [andb]. intros E. injection E as <-.
  assert (R : forall i, i < fst s -> length (firstn (snd s) (skipn (i * a_cols a) (a_data a))) = snd s).
  { intros i Hi. rewrite firstn_length, skipn_length, G. nia. }
  destruct (rows_nth _ (snd s) (fst s) R) as [L N]. split; [destruct s; reflexivity|]. split; [exact L|]. intros i j Hi Hj. unfold element2. cbn [a_cols a_data]. rewrite (N i j Hi Hj).
  rewrite nth_firstn_lt by exact Hj. apply nth_skipn.
Qed.
End Wave.
Lemma partner_reverse name name' : partner name name' -> reverse_name name = name'.
Proof.
  intros [(a & b & c & N & [[-> ->]|[-> ->]])|(A & B & ->)].
  - apply reverse_bior.
  - apply reverse_rbio, N.
  - apply reverse_other; assumption.
Qed.
