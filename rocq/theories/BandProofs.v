From Verif Require Import Base Algebra DiagModel DiagProofs BandModel BandSpec.
Local Open Scope nat_scope.

Section Band.
Context {K : dring}.
Add Ring KringB : (rth K).
Notation vec := (list K).

Lemma map2_length {A B C} (f : A -> B -> C) u v : length u = length v -> length (map2 f u v) = length u.
Proof. intros H. unfold map2. rewrite map_length, combine_length, H, Nat.min_id. reflexivity. Qed.
Lemma map2_nth {A B C} (f : A -> B -> C) u v i da db dc : length u = length v -> i < length u -> nth i (map2 f u v) dc = f (nth i u da) (nth i v db).
Proof.
  intros H Hi. unfold map2. rewrite (nth_indep _ dc (f da db)) by (rewrite map_length, combine_length, H, Nat.min_id; lia).
  change (f da db) with ((fun p => f (fst p) (snd p)) (da, db)). rewrite map_nth, combine_nth by auto. reflexivity.
Qed.
Lemma nth_firstn {A} (l : list A) k i d : i < k -> nth i (firstn k l) d = nth i l d.
Proof. revert l i. induction k as [|k IH]; intros l i H; [lia|]. destruct l as [|a l], i as [|i]; cbn; auto. apply IH. lia. Qed.
Lemma nth_skipn_ {A} (l : list A) k i d : nth i (skipn k l) d = nth (k + i) l d.
Proof. revert l. induction k as [|k IH]; intros l; auto. destruct l as [|a l]; cbn; auto. destruct i; reflexivity. Qed.

Lemma bmul_eq (u v : vec) : length u = length v -> exists w, bmul u v = Ok w /\ length w = length v /\ forall i, i < length v -> nth i w r0 = rmul (nth i u r0) (nth i v r0).
Proof.
  intros H. unfold bmul. rewrite H, Nat.eqb_refl. eexists. split; [reflexivity|]. split; [rewrite map2_length; auto|]. intros i Hi. apply map2_nth; auto. lia.
Qed.
(** an off-diagonal by a vector of size n - 1 *)
Lemma entry_eq (u : vec) i : length u <> 1 -> entry u i = nth i u r0.
Proof. destruct u as [|a [|b u]]; auto. cbn. congruence. Qed.
Lemma bmul_entry (u v : vec) : length u = 1 \/ length u = length v -> exists w, bmul u v = Ok w /\ length w = length v /\ forall i, i < length v -> nth i w r0 = rmul (entry u i) (nth i v r0).
Proof.
  intros H. destruct (Nat.eq_dec (length u) (length v)) as [E|N].
  - destruct (bmul_eq u v E) as (w & Ew & Lw & Hw). exists w. split; [auto|]. split; [auto|]. intros i Hi. rewrite Hw by auto. f_equal.
    destruct u as [|a [|b u]]; auto. cbn in *. destruct i; auto. lia.
  - destruct H as [H|H]; [|congruence]. destruct u as [|a [|b u]]; try discriminate. unfold bmul. cbn [length] in *. destruct (Nat.eqb_spec 1 (length v)); [congruence|].
    eexists. split; [reflexivity|]. split; [apply map_length|]. intros i Hi. cbn [entry].
    rewrite (nth_indep _ r0 (rmul a r0)) by (rewrite map_length; auto). rewrite (map_nth (fun b => rmul a b)). reflexivity.
Qed.
Lemma iadd_eq (w v : vec) : length w = length v -> iadd w v = Ok (map2 radd w v).
Proof. intros H. unfold iadd. rewrite H, Nat.eqb_refl. reflexivity. Qed.

Lemma sum_delta n k (c : K) (f : nat -> K) : sum n (fun j => rmul (if Nat.eqb j k then c else r0) (f j)) = if Nat.ltb k n then rmul c (f k) else r0.
Proof.
  destruct (Nat.ltb_spec k n) as [H|H].
  - rewrite (sum_single n _ k); auto. { rewrite Nat.eqb_refl. reflexivity. } intros i Hi N. destruct (Nat.eqb_spec i k); [congruence|]. ring.
  - apply sum_zero. intros i Hi. destruct (Nat.eqb_spec i k); [lia|]. ring.
Qed.

Lemma upto_length j (l : vec) : j <> 0 -> length (upto j l) = length l - j.
Proof. intros N. unfold upto. destruct (Nat.eqb_spec j 0); [congruence|]. rewrite firstn_length. lia. Qed.
Lemma nth_upto j (l : vec) i : i + j < length l -> j <> 0 -> nth i (upto j l) r0 = nth i l r0.
Proof. intros H N. unfold upto. destruct (Nat.eqb_spec j 0); [congruence|]. apply nth_firstn. lia. Qed.

Lemma add_upto_ok n A x out j w (c : nat -> K) : product n A x out -> j <> 0 -> length w = n - j ->
  (forall i, i + j < n -> nth i w r0 = rmul (c i) (nth (i + j) x r0)) ->
  exists r, add_upto j out w = Ok r /\ product n (fun i k => radd (A i k) (if Nat.eqb k (i + j) then c i else r0)) x r.
Proof.
  intros [L H] Nj Lw Hw. unfold add_upto. rewrite iadd_eq by (rewrite upto_length, L; auto). cbn [rbind]. destruct (Nat.eqb_spec j 0); [congruence|].
  eexists. split; [reflexivity|]. assert (LL : length (map2 radd (upto j out) w) = n - j) by (rewrite map2_length; rewrite upto_length, L; auto).
  split. { rewrite app_length, LL, skipn_length, L. lia. }
  intros i Hi. rewrite (sum_ext n _ (fun k => radd (rmul (A i k) (nth k x r0)) (rmul (if Nat.eqb k (i + j) then c i else r0) (nth k x r0)))) by (intros; ring).
  rewrite sum_add, sum_delta, <- H by auto. destruct (Nat.ltb_spec (i + j) n) as [Q|Q].
  - rewrite app_nth1 by (rewrite LL; lia). rewrite (map2_nth radd _ _ i r0 r0 r0) by (rewrite ?upto_length, ?L; lia). rewrite nth_upto, Hw by (try rewrite L; auto). reflexivity.
  - rewrite app_nth2 by (rewrite LL; lia). rewrite LL, nth_skipn_, L, radd_0_r. f_equal. lia.
Qed.
Lemma add_from_ok n A x out j w (c : nat -> K) : product n A x out -> length w = n - j ->
  (forall k, k + j < n -> nth k w r0 = rmul (c k) (nth k x r0)) ->
  exists r, add_from j out w = Ok r /\ product n (fun i k => radd (A i k) (if Nat.eqb i (k + j) then c k else r0)) x r.
Proof.
  intros [L H] Lw Hw. unfold add_from, from. rewrite iadd_eq by (rewrite skipn_length, L; auto). cbn [rbind].
  eexists. split; [reflexivity|]. assert (LL : length (map2 radd (skipn j out) w) = n - j) by (rewrite map2_length; rewrite skipn_length, L; auto).
  split. { rewrite app_length, LL, firstn_length, L. lia. }
  intros i Hi. rewrite (sum_ext n _ (fun k => radd (rmul (A i k) (nth k x r0)) (rmul (if Nat.eqb k (i - j) then (if Nat.leb j i then c k else r0) else r0) (nth k x r0)))).
  2:{ intros k Hk. destruct (Nat.eqb_spec i (k + j)) as [->|N].
      - replace (k + j - j) with k by lia. rewrite Nat.eqb_refl. destruct (Nat.leb_spec j (k + j)); [ring|lia].
      - destruct (Nat.eqb_spec k (i - j)) as [->|]; [|ring]. destruct (Nat.leb_spec j i); [lia|ring]. }
  rewrite sum_add, <- H by auto.
  assert (sum n (fun k => rmul (if Nat.eqb k (i - j) then (if Nat.leb j i then c k else r0) else r0) (nth k x r0)) = if Nat.leb j i then rmul (c (i - j)) (nth (i - j) x r0) else r0) as ->.
  { rewrite (sum_ext n _ (fun k => rmul (if Nat.eqb k (i - j) then (if Nat.leb j i then c (i - j) else r0) else r0) (nth k x r0))).
    2:{ intros k Hk. destruct (Nat.eqb_spec k (i - j)) as [->|]; auto. }
    rewrite sum_delta. destruct (Nat.ltb_spec (i - j) n); [|lia]. destruct (Nat.leb_spec j i); [reflexivity|ring]. }
  destruct (Nat.leb_spec j i) as [Q|Q].
  - rewrite app_nth2 by (rewrite firstn_length, L; lia). rewrite firstn_length, L. replace (Nat.min j n) with j by lia.
    rewrite (map2_nth radd _ _ (i - j) r0 r0 r0) by (rewrite ?skipn_length, ?L; lia). rewrite nth_skipn_, Hw by lia. f_equal. f_equal. lia.
  - rewrite app_nth1 by (rewrite firstn_length, L; lia). rewrite nth_firstn by auto. ring.
Qed.
Lemma product_ext n (A B : nat -> nat -> K) x out : (forall i j, i < n -> j < n -> A i j = B i j) -> product n A x out -> product n B x out.
Proof. intros E [L H]. split; auto. intros i Hi. rewrite H by auto. apply sum_ext. intros j Hj. rewrite E; auto. Qed.

(** ** Tridiagonal *)
Lemma tri_direct_ok (t : tri K) x : tri_ok t -> length x = length (t_diag t) -> exists out, tri_direct t x = Ok out /\ product (length x) (tri_matrix t) x out.
Proof.
  intros [S1 S2] L. unfold tri_direct. set (n := length (t_diag t)) in *.
  destruct (bmul_eq (t_diag t) x) as (o & -> & Lo & Ho); [auto|]. cbn [rbind].
  assert (P0 : product n (fun i j => if Nat.eqb j i then nth i (t_diag t) r0 else r0) x o).
  { split; [congruence|]. intros i Hi. rewrite sum_delta. destruct (Nat.ltb_spec i n); [|lia]. apply Ho. lia. }
  destruct (bmul_entry (t_sup t) (from 1 x)) as (v & -> & Lv & Hv). { unfold from. rewrite skipn_length. lia. }
  cbn [rbind]. unfold from in Lv, Hv. rewrite skipn_length in Lv, Hv.
  destruct (add_upto_ok n _ x o 1 v (entry (t_sup t)) P0) as (o2 & -> & P1); [lia|lia| |].
  { intros i Hi. rewrite Hv by lia. rewrite nth_skipn_. f_equal. f_equal. lia. }
  cbn [rbind]. destruct (bmul_entry (t_sub t) (upto 1 x)) as (w & -> & Lw & Hw). { rewrite upto_length by lia. lia. }
  cbn [rbind]. rewrite upto_length in Lw, Hw by lia.
  destruct (add_from_ok n _ x o2 1 w (entry (t_sub t)) P1) as (o3 & -> & P2); [lia| |].
  { intros k Hk. rewrite Hw by lia. rewrite nth_upto by lia. reflexivity. }
  exists o3. split; [reflexivity|]. rewrite L. eapply product_ext; [|exact P2]. intros i j Hi Hj. unfold tri_matrix.
  rewrite !Nat.add_1_r. rewrite (Nat.eqb_sym j i).
  destruct (Nat.eqb_spec i j) as [->|N1]. { destruct (Nat.eqb_spec j (S j)); [lia|]. ring. }
  destruct (Nat.eqb_spec j (S i)) as [->|N2]. { destruct (Nat.eqb_spec i (S (S i))); [lia|]. ring. }
  destruct (Nat.eqb_spec i (S j)); ring.
Qed.

Lemma size_ok_iff (v : vec) n : size_ok v n = true <-> length v = 1 \/ S (length v) = n.
Proof. unfold size_ok. rewrite orb_true_iff, !Nat.eqb_eq. reflexivity. Qed.
Lemma make_tri_ok conj diag sub sup t : make_tri (K := K) conj diag sub sup = Ok t -> tri_ok t /\ t_diag t = diag /\ t_sub t = sub /\ t_sup t = match sup with Some s => s | None => map conj sub end.
Proof.
  unfold make_tri, tri_ok. destruct (size_ok sub (length diag)) eqn:E; [|discriminate]. apply size_ok_iff in E. cbn [negb]. destruct sup as [s|].
  - destruct (size_ok s (length diag)) eqn:E2; [|discriminate]. apply size_ok_iff in E2. intros [= <-]. cbn. auto.
  - intros [= <-]. cbn. rewrite map_length. auto.
Qed.
Lemma make_tri_total conj diag sub s : (length sub = 1 \/ S (length sub) = length diag) -> (length s = 1 \/ S (length s) = length diag) -> make_tri (K := K) conj diag sub (Some s) = Ok (T diag sub s).
Proof. intros A B. apply size_ok_iff in A, B. unfold make_tri. rewrite A, B. reflexivity. Qed.
Lemma entry_map (conj : K -> K) (v : vec) i : conj r0 = r0 -> entry (map conj v) i = conj (entry v i).
Proof. intros C. destruct v as [|a [|b v]]; [destruct i; auto|reflexivity|]. unfold entry. cbn [map]. rewrite <- C at 1. apply (map_nth conj (a :: b :: v)). Qed.
Lemma nth_map0 (conj : K -> K) (v : vec) i : conj (r0 : K) = r0 -> nth i (map conj v) r0 = conj (nth i v r0).
Proof. intros C. rewrite <- C at 1. apply map_nth. Qed.

Lemma tri_T_ok (conj : K -> K) (t : tri K) : tri_ok t -> exists u, tri_T conj t = Ok u /\ tri_ok u /\ length (t_diag u) = length (t_diag t) /\ forall i j, tri_matrix u i j = tri_matrix t j i.
Proof.
  intros [A B]. unfold tri_T. rewrite make_tri_total by auto. eexists. split; [reflexivity|]. split; [split; auto|]. split; [auto|]. intros i j. unfold tri_matrix. cbn [t_diag t_sub t_sup].
  rewrite (Nat.eqb_sym j i). destruct (Nat.eqb_spec i j) as [->|]; auto. destruct (Nat.eqb_spec j (S i)) as [->|]; auto. destruct (Nat.eqb_spec i (S (S i))); [lia|reflexivity].
Qed.
Lemma tri_C_ok (conj : K -> K) (t : tri K) : conj (r0 : K) = r0 -> tri_ok t -> exists u, tri_C conj t = Ok u /\ tri_ok u /\ length (t_diag u) = length (t_diag t) /\ forall i j, tri_matrix u i j = conj (tri_matrix t i j).
Proof.
  intros C [A B]. unfold tri_C. rewrite make_tri_total by (rewrite !map_length; auto). eexists. split; [reflexivity|]. split; [split; cbn; rewrite !map_length; auto|]. split; [apply map_length|].
  intros i j. unfold tri_matrix. cbn [t_diag t_sub t_sup]. destruct (Nat.eqb i j); [apply nth_map0; auto|]. destruct (Nat.eqb j (S i)); [apply entry_map; auto|].
  destruct (Nat.eqb i (S j)); [apply entry_map; auto|]. auto.
Qed.
Lemma tri_H_ok (conj : K -> K) (t : tri K) : conj (r0 : K) = r0 -> tri_ok t -> exists u, tri_H conj t = Ok u /\ tri_ok u /\ length (t_diag u) = length (t_diag t) /\ forall i j, tri_matrix u i j = conj (tri_matrix t j i).
Proof.
  intros C W. destruct (tri_T_ok conj t W) as (v & Ev & Wv & Lv & Hv). destruct (tri_C_ok conj v C Wv) as (u & Eu & Wu & Lu & Hu).
  exists u. split. { rewrite <- Eu. unfold tri_T in Ev. apply make_tri_ok in Ev as (_ & -> & -> & ->) || idtac. destruct W as [A B]. rewrite make_tri_total in Ev by auto. injection Ev as <-. reflexivity. }
  split; [auto|]. split; [congruence|]. intros i j. rewrite Hu, Hv. reflexivity.
Qed.

Lemma allclose_entry (u v : vec) n : (length u = 1 \/ S (length u) = n) -> (length v = 1 \/ S (length v) = n) -> allclose u v = true -> forall i, S i < n -> entry u i = entry v i.
Proof.
  intros A B E i Hi. unfold allclose in E. destruct (Nat.eqb_spec (length u) (length v)) as [L|L].
  - rewrite forallb_forall in E. assert (G : forall k, k < length u -> nth k u r0 = nth k v r0).
    { intros k Hk. assert (I : In (nth k (combine u v) (r0, r0)) (combine u v)) by (apply nth_In; rewrite combine_length; lia).
      rewrite combine_nth in I by auto. apply E in I. apply deq_true in I. exact I. }
    destruct u as [|a [|b u]], v as [|a' [|b' v]]; try discriminate; auto; try (cbn in L; lia).
    + apply (G 0). cbn. lia.
    + unfold entry. apply G. destruct A as [A|A]; cbn in *; lia.
  - destruct A as [A|A].
    + destruct u as [|a [|]]; try discriminate. destruct B as [B|B]; [cbn in L; congruence|].
      destruct v as [|a' [|b' v]]; try (cbn in *; lia). rewrite forallb_forall in E. unfold entry. apply deq_true, E. apply nth_In. lia.
    + destruct B as [B|B]; [|lia]. destruct v as [|b [|]]; try discriminate. destruct u as [|a [|a' u]]; try discriminate; try (cbn in *; lia).
      rewrite forallb_forall in E. unfold entry. apply deq_true, E. apply nth_In. lia.
Qed.
Lemma tri_symmetric_ok (t : tri K) i j : tri_ok t -> tri_symmetric t = true -> i < length (t_diag t) -> j < length (t_diag t) -> tri_matrix t i j = tri_matrix t j i.
Proof.
  intros [A B] E Hi Hj. assert (G := allclose_entry _ _ _ A B E). unfold tri_matrix. rewrite (Nat.eqb_sym j i). destruct (Nat.eqb_spec i j) as [->|]; auto.
  destruct (Nat.eqb_spec j (S i)) as [->|]. { destruct (Nat.eqb_spec i (S (S i))); [lia|]. symmetry. auto. }
  destruct (Nat.eqb_spec i (S j)) as [->|]; auto.
Qed.
Lemma tri_hermitian_ok (conj : K -> K) (t : tri K) i j : conj (r0 : K) = r0 -> (forall a : K, conj (conj a) = a) -> tri_ok t -> tri_hermitian conj t = true -> i < length (t_diag t) -> j < length (t_diag t) ->
  tri_matrix t i j = conj (tri_matrix t j i).
Proof.
  intros C CC [A B] E Hi Hj. apply andb_true_iff in E as [E1 E2].
  assert (G : forall k, S k < length (t_diag t) -> entry (t_sub t) k = conj (entry (t_sup t) k)).
  { intros k Hk. rewrite <- entry_map by auto. apply (allclose_entry _ _ (length (t_diag t)) A); auto. rewrite map_length; auto. }
  unfold tri_matrix. rewrite (Nat.eqb_sym j i). destruct (Nat.eqb_spec i j) as [->|].
  { rewrite forallb_forall in E1. apply deq_true, E1, nth_In. auto. }
  destruct (Nat.eqb_spec j (S i)) as [->|]. { destruct (Nat.eqb_spec i (S (S i))); [lia|]. rewrite G, CC by auto. reflexivity. }
  destruct (Nat.eqb_spec i (S j)) as [->|]; auto.
Qed.

Lemma todense_ok (t : tri K) : S (length (t_sub t)) = length (t_diag t) -> S (length (t_sup t)) = length (t_diag t) ->
  exists m, tri_todense t = Ok m /\ forall i j, i < length (t_diag t) -> j < length (t_diag t) -> m i j = tri_matrix t i j.
Proof.
  intros A B. unfold tri_todense, dense_add, np_diag. cbn [fst snd]. rewrite !Nat.add_0_r, Nat.eqb_refl. cbn [rbind].
  assert (length (t_sub t) + 1 = length (t_diag t)) as -> by lia. rewrite Nat.eqb_refl. cbn [rbind]. assert (length (t_sup t) + 1 = length (t_diag t)) as -> by lia. rewrite Nat.eqb_refl.
  eexists. split; [reflexivity|]. intros i j Hi Hj. cbn beta. unfold tri_matrix. rewrite !Nat.add_0_r, !Nat.sub_0_r, !Nat.add_1_r.
  rewrite (Nat.eqb_sym (S i) j).
  assert (EN : forall (v : vec) k, S k < length (t_diag t) -> S (length v) = length (t_diag t) -> entry v k = nth k v r0).
  { intros v k Hk Hv. destruct v as [|a [|b v]]; auto. cbn in *. destruct k; [auto|lia]. }
  destruct (Nat.eqb_spec i j) as [->|]. { destruct (Nat.eqb_spec j (S j)); [lia|]. ring. }
  destruct (Nat.eqb_spec j (S i)) as [->|]. { destruct (Nat.eqb_spec i (S (S i))); [lia|]. rewrite EN by auto. ring. }
  destruct (Nat.eqb_spec i (S j)) as [->|]; [|ring]. rewrite EN by auto. replace (S j - 1) with j by lia. ring.
Qed.

(** ** Band *)
Lemma row_ok (ab : list vec) n r : Forall (fun v => length v = n) ab -> r < length ab -> row ab r = Ok (nth r ab []) /\ length (nth r ab []) = n.
Proof.
  intros F H. unfold row. rewrite (nth_error_nth' ab [] H). split; [reflexivity|]. rewrite Forall_forall in F. apply F, nth_In, H.
Qed.
Lemma upper_loop (ab : list vec) ku n x : Forall (fun v => length v = n) ab -> ku < length ab -> length x = n ->
  forall m k A out, k + m <= ku -> product n A x out ->
  exists r, fold_left (band_upper ab ku x) (seq k m) (Ok out) = Ok r /\
    product n (fun i j => radd (A i j) (sum m (fun p => if Nat.eqb j (i + (ku - (k + p))) then nth j (nth (k + p) ab []) r0 else r0))) x r.
Proof.
  intros F Hku Lx. induction m as [|m IH]; intros k A out Hk P.
  - exists out. split; [reflexivity|]. eapply product_ext; [|exact P]. intros; cbn. ring.
  - cbn [seq fold_left]. unfold band_upper at 2. cbn [rbind]. destruct (row_ok ab n k F) as [-> Lr]; [lia|]. cbn [rbind]. set (r := nth k ab []) in *.
    destruct (bmul_eq (from (ku - k) r) (from (ku - k) x)) as (v & -> & Lv & Hv). { unfold from. rewrite !skipn_length. lia. }
    cbn [rbind]. unfold from in Lv, Hv. rewrite skipn_length in Lv, Hv.
    destruct (add_upto_ok n A x out (ku - k) v (fun i => nth (i + (ku - k)) r r0) P) as (o & -> & P'); [lia|lia| |].
    { intros i Hi. rewrite Hv by lia. rewrite !nth_skipn_. f_equal; f_equal; lia. }
    destruct (IH (S k) _ o ltac:(lia) P') as (o' & Eo & P''). exists o'. split; [exact Eo|]. eapply product_ext; [|exact P'']. intros i j Hi Hj. cbn beta.
    rewrite sum_S_l. rewrite !Nat.add_0_r. fold r.
    rewrite (sum_ext m _ (fun i0 => if Nat.eqb j (i + (ku - (k + S i0))) then nth j (nth (k + S i0) ab []) r0 else r0)).
    2:{ intros p Hp. replace (S k + p) with (k + S p) by lia. reflexivity. }
    destruct (Nat.eqb_spec j (i + (ku - k))) as [->|]; ring.
Qed.
Lemma lower_loop (ab : list vec) n x : Forall (fun v => length v = n) ab -> length x = n ->
  forall m k A out, k <> 0 -> k + m < length ab -> product n A x out ->
  exists r, fold_left (band_lower ab x) (seq k m) (Ok out) = Ok r /\
    product n (fun i j => radd (A i j) (sum m (fun p => if Nat.eqb i (j + (k + p)) then nth j (nth (k + p + 1) ab []) r0 else r0))) x r.
Proof.
  intros F Lx. induction m as [|m IH]; intros k A out Nk Hk P.
  - exists out. split; [reflexivity|]. eapply product_ext; [|exact P]. intros; cbn. ring.
  - cbn [seq fold_left]. unfold band_lower at 2. cbn [rbind]. destruct (row_ok ab n (k + 1) F) as [-> Lr]; [lia|]. cbn [rbind]. set (r := nth (k + 1) ab []) in *.
    destruct (bmul_eq (upto k r) (upto k x)) as (v & -> & Lv & Hv). { rewrite !upto_length by auto. lia. }
    cbn [rbind]. rewrite upto_length in Lv, Hv by auto.
    destruct (add_from_ok n A x out k v (fun i => nth i r r0) P) as (o & -> & P'); [lia| |].
    { intros i Hi. rewrite Hv by lia. rewrite !nth_upto by (auto; lia). reflexivity. }
    destruct (IH (S k) _ o ltac:(lia) ltac:(lia) P') as (o' & Eo & P''). exists o'. split; [exact Eo|]. eapply product_ext; [|exact P'']. intros i j Hi Hj. cbn beta.
    rewrite sum_S_l. rewrite !Nat.add_0_r. fold r.
    rewrite (sum_ext m _ (fun i0 => if Nat.eqb i (j + (k + S i0)) then nth j (nth (k + S i0 + 1) ab []) r0 else r0)).
    2:{ intros p Hp. replace (S k + p) with (k + S p) by lia. reflexivity. }
    ring.
Qed.
Lemma sum_pick n (b : nat -> bool) (f : nat -> K) k : k < n -> (forall p, p < n -> b p = true <-> p = k) -> sum n (fun p => if b p then f p else r0) = f k.
Proof.
  intros Hk Hb. rewrite (sum_single n _ k Hk). { destruct (b k) eqn:E; auto. assert (b k = true) by (apply Hb; auto). congruence. }
  intros i Hi N. destruct (b i) eqn:E; auto. apply Hb in E; [congruence|auto].
Qed.
Lemma sum_pick_none n (b : nat -> bool) (f : nat -> K) : (forall p, p < n -> b p = false) -> sum n (fun p => if b p then f p else r0) = r0.
Proof. intros H. apply sum_zero. intros i Hi. rewrite H; auto. Qed.

Lemma band_direct_ok (b : band K) n x : band_ok b n -> (b_ku b = 1 \/ b_kl b = 0) -> length x = n -> exists out, band_direct b x = Ok out /\ product n (band_matrix b) x out.
Proof.
  destruct b as [ab kl ku]. intros [L F] HK Lx. cbn [b_ab b_kl b_ku] in *. unfold band_direct.
  destruct (row_ok ab n ku F) as [-> Lr]; [lia|]. cbn [rbind]. destruct (bmul_eq (nth ku ab []) x) as (o & -> & Lo & Ho); [congruence|].
  assert (P0 : product n (fun i j => if Nat.eqb j i then nth i (nth ku ab []) r0 else r0) x o).
  { split; [congruence|]. intros i Hi. rewrite sum_delta. destruct (Nat.ltb_spec i n); [|lia]. apply Ho. lia. }
  destruct (upper_loop ab ku n x F ltac:(lia) Lx ku 0 _ o ltac:(lia) P0) as (o1 & -> & P1). cbn [plus] in P1.
  assert (G : exists out, fold_left (band_lower ab x) (seq ku kl) (Ok o1) = Ok out /\ product n (fun i j => radd (radd (if Nat.eqb j i then nth i (nth ku ab []) r0 else r0) (sum ku (fun p => if Nat.eqb j (i + (ku - p)) then nth j (nth p ab []) r0 else r0))) (sum kl (fun p => if Nat.eqb i (j + (1 + p)) then nth j (nth (ku + p + 1) ab []) r0 else r0))) x out).
  { destruct HK as [->| ->].
    - apply (lower_loop ab n x F Lx kl 1 _ o1); auto; lia.
    - exists o1. split; [reflexivity|]. eapply product_ext; [|exact P1]. intros; cbn. ring. }
  destruct G as (out & -> & P). exists out. split; [reflexivity|]. eapply product_ext; [|exact P]. intros i j Hi Hj. unfold band_matrix. cbn [b_ab b_kl b_ku].
  destruct (Nat.lt_trichotomy i j) as [C|[->|C]].
  - destruct (Nat.eqb_spec j i); [lia|]. rewrite (sum_pick_none kl) by (intros p Hp; apply Nat.eqb_neq; lia).
    destruct (Nat.leb_spec j (i + ku)) as [Q|Q].
    + rewrite (sum_pick ku _ _ (ku + i - j)); [|lia|intros p Hp; rewrite Nat.eqb_eq; lia]. destruct (Nat.leb_spec i (j + kl)); [|lia]. cbn [andb]. ring.
    + rewrite sum_pick_none by (intros p Hp; apply Nat.eqb_neq; lia). cbn [andb]. ring.
  - rewrite Nat.eqb_refl. rewrite !sum_pick_none by (intros p Hp; apply Nat.eqb_neq; lia). destruct (Nat.leb_spec j (j + ku)); [|lia]. destruct (Nat.leb_spec j (j + kl)); [|lia]. cbn [andb].
    replace (ku + j - j) with ku by lia. ring.
  - destruct (Nat.eqb_spec j i); [lia|]. rewrite (sum_pick_none ku) by (intros p Hp; apply Nat.eqb_neq; lia).
    destruct (Nat.leb_spec j (i + ku)); [|lia]. cbn [andb]. destruct (Nat.leb_spec i (j + kl)) as [Q|Q].
    + rewrite (sum_pick kl _ _ (i - j - 1)); [|lia|intros p Hp; rewrite Nat.eqb_eq; lia]. replace (ku + (i - j - 1) + 1) with (ku + i - j) by lia. ring.
    + rewrite sum_pick_none by (intros p Hp; apply Nat.eqb_neq; lia). ring.
Qed.

(** ** Symmetric band *)
Lemma sym_loop (ab : list vec) n x : Forall (fun v => length v = n) ab -> length x = n ->
  forall m k A out, k <> 0 -> k + m <= length ab -> product n A x out ->
  exists r, fold_left (sym_step ab x) (seq k m) (Ok out) = Ok r /\
    product n (fun i j => radd (A i j) (sum m (fun p => if Nat.eqb (Nat.max i j) (Nat.min i j + (k + p)) then nth (Nat.min i j) (nth (k + p) ab []) r0 else r0))) x r.
Proof.
  intros F Lx. induction m as [|m IH]; intros k A out Nk Hk P.
  - exists out. split; [reflexivity|]. eapply product_ext; [|exact P]. intros; cbn. ring.
  - cbn [seq fold_left]. unfold sym_step at 2. cbn [rbind]. destruct (row_ok ab n k F) as [-> Lr]; [lia|]. cbn [rbind]. set (r := nth k ab []) in *.
    destruct (bmul_eq (upto k r) (from k x)) as (v & -> & Lv & Hv). { unfold from. rewrite upto_length, skipn_length by auto. lia. }
    cbn [rbind]. unfold from in Lv, Hv. rewrite skipn_length in Lv, Hv.
    destruct (add_upto_ok n A x out k v (fun i => nth i r r0) P) as (o & -> & P'); [auto|lia| |].
    { intros i Hi. rewrite Hv by lia. rewrite nth_upto, nth_skipn_ by (auto; lia). f_equal. f_equal. lia. }
    cbn [rbind]. destruct (bmul_eq (upto k r) (upto k x)) as (w & -> & Lw & Hw). { rewrite !upto_length by auto. lia. }
    cbn [rbind]. rewrite upto_length in Lw, Hw by auto.
    destruct (add_from_ok n _ x o k w (fun i => nth i r r0) P') as (o2 & -> & P2); [lia| |].
    { intros i Hi. rewrite Hw by lia. rewrite !nth_upto by (auto; lia). reflexivity. }
    destruct (IH (S k) _ o2 ltac:(lia) ltac:(lia) P2) as (o' & Eo & P''). exists o'. split; [exact Eo|]. eapply product_ext; [|exact P'']. intros i j Hi Hj. cbn beta.
    rewrite sum_S_l. rewrite !Nat.add_0_r. fold r.
    rewrite (sum_ext m _ (fun p => if Nat.eqb (Nat.max i j) (Nat.min i j + (k + S p)) then nth (Nat.min i j) (nth (k + S p) ab []) r0 else r0)).
    2:{ intros p Hp. replace (S k + p) with (k + S p) by lia. reflexivity. }
    destruct (Nat.eqb_spec j (i + k)) as [->|N1].
    { destruct (Nat.eqb_spec i (i + k + k)); [lia|]. replace (Nat.max i (i + k)) with (i + k) by lia. replace (Nat.min i (i + k)) with i by lia. rewrite Nat.eqb_refl. ring. }
    destruct (Nat.eqb_spec i (j + k)) as [->|N2].
    { replace (Nat.max (j + k) j) with (j + k) by lia. replace (Nat.min (j + k) j) with j by lia. rewrite Nat.eqb_refl. ring. }
    destruct (Nat.eqb_spec (Nat.max i j) (Nat.min i j + k)); [lia|]. ring.
Qed.
Lemma symband_ok (ab : list vec) lower n x : Forall (fun v => length v = n) ab -> ab <> [] -> length x = n ->
  exists out, symband_direct ab lower x = Ok out /\ product n (lower_matrix ab) x out.
Proof.
  intros F NE Lx. assert (0 < length ab) by (destruct ab; [congruence|cbn; lia]). unfold symband_direct.
  destruct (row_ok ab n 0 F) as [-> Lr]; [lia|]. cbn [rbind]. destruct (bmul_eq (nth 0 ab []) x) as (o & -> & Lo & Ho); [congruence|].
  assert (P0 : product n (fun i j => if Nat.eqb j i then nth i (nth 0 ab []) r0 else r0) x o).
  { split; [congruence|]. intros i Hi. rewrite sum_delta. destruct (Nat.ltb_spec i n); [|lia]. apply Ho. lia. }
  destruct (sym_loop ab n x F Lx (length ab - 1) 1 _ o ltac:(lia) ltac:(lia) P0) as (out & -> & P). exists out. split; [reflexivity|].
  eapply product_ext; [|exact P]. intros i j Hi Hj. unfold lower_matrix. cbn beta. destruct (Nat.eqb_spec j i) as [->|N].
  - rewrite Nat.max_id, Nat.min_id, Nat.sub_diag. rewrite sum_pick_none by (intros p Hp; apply Nat.eqb_neq; lia). ring.
  - set (d := Nat.max i j - Nat.min i j). assert (d <> 0) by (unfold d; lia). destruct (Nat.lt_ge_cases d (length ab)) as [Q|Q].
    + rewrite (sum_pick (length ab - 1) _ _ (d - 1)); [|lia|intros p Hp; rewrite Nat.eqb_eq; unfold d in *; lia]. replace (1 + (d - 1)) with d by lia. ring.
    + rewrite sum_pick_none by (intros p Hp; apply Nat.eqb_neq; unfold d in *; lia). rewrite (nth_overflow ab) by lia. destruct (Nat.min i j); cbn; ring.
Qed.

(** ** The transposed storage *)
Lemma update_length {A} (l : list A) k f : length (update l k f) = length l.
Proof. revert k. induction l as [|a l IH]; intros [|k]; cbn; auto. Qed.
Lemma update_nth {A} (l : list A) k f r d : r < length l -> nth r (update l k f) d = if Nat.eqb r k then f (nth r l d) else nth r l d.
Proof. revert k r. induction l as [|a l IH]; intros [|k] [|r] H; cbn in *; auto; try lia. apply IH. lia. Qed.
Lemma updates {A} (f : nat -> A -> A) d m : forall l, let l' := fold_left (fun l k => update l k (f k)) (seq 0 m) l in
  length l' = length l /\ forall r, r < length l -> nth r l' d = if Nat.ltb r m then f r (nth r l d) else nth r l d.
Proof.
  induction m as [|m IH]; intros l; [cbn; split; auto|]. cbn zeta. rewrite seq_S, fold_left_app. cbn [fold_left plus]. destruct (IH l) as [L H]. cbn zeta in *. split; [rewrite update_length; auto|].
  intros r Hr. rewrite update_nth by (rewrite L; auto). rewrite H by auto. destruct (Nat.eqb_spec r m) as [->|N].
  - rewrite Nat.ltb_irrefl. destruct (Nat.ltb_spec m (S m)); [reflexivity|lia].
  - destruct (Nat.ltb_spec r m), (Nat.ltb_spec r (S m)); auto; lia.
Qed.
Lemma fold_left_map_ {A B C} (f : A -> B -> A) (g : C -> B) l a : fold_left f (map g l) a = fold_left (fun a c => f a (g c)) l a.
Proof. revert a. induction l; intros; cbn; auto. Qed.
Lemma fold_left_ext_ {A B} (f g : A -> B -> A) l a : (forall a b, f a b = g a b) -> fold_left f l a = fold_left g l a.
Proof. intros H. revert a. induction l; intros; cbn; auto. rewrite H. auto. Qed.

Lemma band_get_length i (r : vec) n : length r = n -> length (band_get i r) = n - Z.to_nat (Z.abs i).
Proof.
  intros L. unfold band_get. destruct (Z.eqb_spec i 0); [lia|]. destruct (Z.ltb_spec 0 i); [rewrite skipn_length; lia|]. rewrite firstn_length. lia.
Qed.
Lemma band_put_length i (r v : vec) n : length r = n -> length v = n - Z.to_nat (Z.abs i) -> length (band_put i r v) = n.
Proof.
  intros L Lv. unfold band_put. destruct (Z.eqb_spec i 0); [lia|]. destruct (Z.ltb_spec 0 i); rewrite app_length; [rewrite firstn_length|rewrite skipn_length]; lia.
Qed.
Lemma band_rab_ok (b : band K) n : band_ok b n -> band_ok (B (band_rab b) (b_ku b) (b_kl b)) n /\
  forall i j, i < n -> j < n -> band_matrix (B (band_rab b) (b_ku b) (b_kl b)) i j = band_matrix b j i.
Proof.
  destruct b as [ab kl ku]. intros [L F]. cbn [b_ab b_kl b_ku] in *.
  set (f := fun k (r : vec) => let i := (Z.of_nat k - Z.of_nat kl)%Z in band_put (- i) r (band_diag (B ab kl ku) i)).
  set (z := map (fun r : vec => map (fun _ => r0 : K) r) ab).
  assert (E : band_rab (B ab kl ku) = fold_left (fun l k => update l k (f k)) (seq 0 (kl + ku + 1)) z).
  { unfold band_rab. cbn [b_ab b_kl b_ku]. rewrite fold_left_map_. apply fold_left_ext_. intros l k. unfold f, band_row. f_equal. lia. }
  destruct (updates f [] (kl + ku + 1) z) as [LU HU]. cbn zeta in *. rewrite <- E in *. assert (Lz : length z = kl + ku + 1) by (unfold z; rewrite map_length; auto).
  assert (Zr : forall r, r < kl + ku + 1 -> length (nth r z []) = n).
  { intros r Hr. unfold z. change [] with (map (fun _ => r0 : K) ([] : vec)). rewrite (map_nth (fun r : vec => map (fun _ => r0 : K) r)), map_length. destruct (row_ok ab n r F); [lia|auto]. }
  assert (Lrow : forall r, r < kl + ku + 1 -> length (nth r (band_rab (B ab kl ku)) []) = n).
  { intros r Hr. rewrite HU by lia. destruct (Nat.ltb_spec r (kl + ku + 1)); [|lia]. unfold f. apply band_put_length; [apply Zr; auto|].
    unfold band_diag. cbn [b_ku b_ab]. rewrite (band_get_length _ _ n); [lia|]. destruct (row_ok ab n (band_row ku (Z.of_nat r - Z.of_nat kl)) F); [unfold band_row; lia|auto]. }
  split. { split; cbn [b_ab b_kl b_ku]; [lia|]. apply Forall_forall. intros v Hv. apply (In_nth _ _ []) in Hv as (r & Hr & <-). apply Lrow. lia. }
  intros i j Hi Hj. unfold band_matrix. cbn [b_ab b_kl b_ku]. rewrite (andb_comm (Nat.leb i (j + ku))).
  destruct (Nat.leb_spec j (i + kl)); [|reflexivity]. destruct (Nat.leb_spec i (j + ku)); [|reflexivity]. cbn [andb].
  rewrite HU by lia. destruct (Nat.ltb_spec (kl + i - j) (kl + ku + 1)); [|lia]. unfold f.
  replace (Z.of_nat (kl + i - j) - Z.of_nat kl)%Z with (Z.of_nat i - Z.of_nat j)%Z by lia. unfold band_diag. cbn [b_ku b_ab].
  assert (RR : length (nth (band_row ku (Z.of_nat i - Z.of_nat j)) ab []) = n) by (destruct (row_ok ab n (band_row ku (Z.of_nat i - Z.of_nat j)) F); [unfold band_row; lia|auto]).
  replace (band_row ku (Z.of_nat i - Z.of_nat j)) with (ku + j - i) in * by (unfold band_row; lia).
  assert (ZR := Zr (kl + i - j) ltac:(lia)).
  unfold band_put, band_get. destruct (Z.eqb_spec (- (Z.of_nat i - Z.of_nat j)) 0) as [E0|N0].
  { destruct (Z.eqb_spec (Z.of_nat i - Z.of_nat j) 0); [|lia]. f_equal. lia. }
  destruct (Z.eqb_spec (Z.of_nat i - Z.of_nat j) 0); [lia|].
  destruct (Z.ltb_spec 0 (- (Z.of_nat i - Z.of_nat j))) as [C|C], (Z.ltb_spec 0 (Z.of_nat i - Z.of_nat j)) as [C'|C']; try lia.
  - rewrite app_nth2 by (rewrite firstn_length, ZR; lia). rewrite firstn_length, ZR. rewrite nth_firstn by lia. f_equal. lia.
  - rewrite app_nth1 by (rewrite skipn_length, RR; lia). rewrite nth_skipn_. f_equal. lia.
Qed.

(** ** toband *)
Lemma iset_ok (w v : vec) : length v = 1 \/ length v = length w -> exists r, iset w v = Ok r /\ length r = length w /\ forall i, i < length w -> nth i r r0 = entry v i.
Proof.
  intros H. unfold iset. destruct (Nat.eqb_spec (length w) (length v)) as [E|N].
  - exists v. split; [reflexivity|]. split; [auto|]. intros i Hi. destruct v as [|a [|b v]]; auto. cbn in *. destruct i; [auto|lia].
  - destruct H as [H|H]; [|congruence]. destruct v as [|a [|b v]]; [discriminate| |discriminate]. eexists. split; [reflexivity|]. split; [apply map_length|].
    cbn [entry]. clear. induction w as [|c w IH]; intros [|i] Hi; cbn in *; try lia; auto. apply IH. lia.
Qed.
Lemma toband_ok (t : tri K) : tri_ok t -> let n := length (t_diag t) in 0 < n ->
  match toband t with
  | Ok (inl b) => band_ok b n /\ b_ku b = 1 /\ forall i j, i < n -> j < n -> band_matrix b i j = tri_matrix t i j
  | Ok (inr ab) => Forall (fun r => length r = n) ab /\ ab <> [] /\ forall i j, i < n -> j < n -> lower_matrix ab i j = tri_matrix t i j
  | Raise _ => False
  end.
Proof.
  intros W n Hn. assert (W' := W). destruct W' as [A B]. fold n in A, B. unfold toband. fold n.
  assert (LZ : length (zeros (K := K) n) = n) by apply repeat_length.
  assert (LU : length (upto 1 (zeros (K := K) n)) = n - 1) by (rewrite upto_length by lia; rewrite LZ; auto).
  assert (LF : length (from 1 (zeros (K := K) n)) = n - 1) by (unfold from; rewrite skipn_length, LZ; auto).
  destruct (iset_ok (upto 1 (zeros n)) (t_sub t)) as (vs & Es & Ls & Hs); [rewrite LU; lia|]. rewrite LU in Ls, Hs.
  destruct (iset_ok (from 1 (zeros n)) (t_sup t)) as (vu & Eu & Lu & Hu); [rewrite LF; lia|]. rewrite LF in Lu, Hu.
  assert (E1 : iset (zeros n) (t_diag t) = Ok (t_diag t)) by (unfold iset; rewrite LZ, Nat.eqb_refl; reflexivity).
  assert (LS : length (vs ++ skipn (n - 1) (zeros n)) = n) by (rewrite app_length, skipn_length, LZ; lia).
  assert (NS : forall k, S k < n -> nth k (vs ++ skipn (n - 1) (zeros n)) r0 = entry (t_sub t) k) by (intros k Hk; rewrite app_nth1 by lia; apply Hs; lia).
  destruct (tri_symmetric t) eqn:SY; cbn [negb].
  - rewrite E1, Es. cbn [rbind]. split; [repeat constructor; auto|]. split; [discriminate|]. intros i j Hi Hj.
    unfold lower_matrix.
    assert (G : forall i j, i < n -> j < n -> j <= i -> nth j (nth (i - j) [t_diag t; vs ++ skipn (n - 1) (zeros n)] []) r0 = tri_matrix t i j).
    { clear i j Hi Hj. intros i j Hi Hj Q. unfold tri_matrix. destruct (Nat.eqb_spec i j) as [->|N]; [rewrite Nat.sub_diag; reflexivity|].
      destruct (Nat.eqb_spec j (S i)); [lia|]. destruct (Nat.eqb_spec i (S j)) as [->|N2].
      - replace (S j - j) with 1 by lia. apply NS. auto.
      - replace (i - j) with (S (S (i - j - 2))) by lia. cbn [nth]. destruct (i - j - 2); destruct j; reflexivity. }
    destruct (Nat.le_ge_cases j i) as [Q|Q].
    + replace (Nat.min i j) with j by lia. replace (Nat.max i j) with i by lia. apply G; auto.
    + replace (Nat.min i j) with i by lia. replace (Nat.max i j) with j by lia. rewrite G by auto. apply tri_symmetric_ok; auto.
  - rewrite Es. cbn [rbind]. rewrite E1. cbn [rbind]. rewrite Eu. cbn [rbind].
    assert (LU0 : length (firstn 1 (zeros n) ++ vu) = n) by (rewrite app_length, firstn_length, LZ; lia).
    split; [split; [reflexivity|cbn [b_ab]; repeat constructor; auto]|]. split; [reflexivity|]. intros i j Hi Hj. unfold band_matrix, tri_matrix. cbn [b_ab b_kl b_ku].
    destruct (Nat.eqb_spec i j) as [->|N].
    { destruct (Nat.leb_spec j (j + 1)); [|lia]. cbn [andb]. replace (1 + j - j) with 1 by lia. reflexivity. }
    destruct (Nat.eqb_spec j (S i)) as [->|N2].
    { destruct (Nat.leb_spec (S i) (i + 1)); [|lia]. destruct (Nat.leb_spec i (S i + 1)); [|lia]. cbn [andb]. replace (1 + i - S i) with 0 by lia. cbn [nth].
      rewrite app_nth2 by (rewrite firstn_length, LZ; lia). rewrite firstn_length, LZ. replace (S i - Nat.min 1 n) with i by lia. apply Hu. lia. }
    destruct (Nat.eqb_spec i (S j)) as [->|N3].
    { destruct (Nat.leb_spec j (S j + 1)); [|lia]. destruct (Nat.leb_spec (S j) (j + 1)); [|lia]. cbn [andb]. replace (1 + S j - j) with 2 by lia. cbn [nth]. apply NS. auto. }
    destruct (Nat.leb_spec j (i + 1)), (Nat.leb_spec i (j + 1)); try reflexivity. lia.
Qed.
End Band.
