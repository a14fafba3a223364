(** Proofs for C41. *)
From Verif Require Import Base Algebra Ofield CgModel CgSpec CgProofs PowModel LanModel LanSpec.

Section Lanczos.
Context {K : ofield} (n : nat) (A : nat -> nat -> K) (sqrt : K -> K) (R : has_roots n sqrt) (v0 : nat -> K) (view : bool).
Add Ring KringL : (rth K).
Local Open Scope cr_scope.
Notation vec := (nat -> K).
Notation dot := (CgModel.dot n).
Notation app := (CgModel.apply n A).
Notation iteration := (LanModel.iteration n A sqrt).
Definition at_ (k : nat) : state K := iterations n A sqrt k (snd (initialize n sqrt view v0)).

Lemma niter_S s : l_niter (iteration s) = S (l_niter s).
Proof. unfold LanModel.iteration. destruct (l_vectors s _); [|reflexivity]. destruct (Nat.ltb 1 _); [|reflexivity]. destruct (l_beta s _); [|reflexivity]. destruct (l_vectors s _); reflexivity. Qed.
Lemma niter k : l_niter (at_ k) = k.
Proof. unfold at_. induction k; [reflexivity|]. cbn [iterations]. rewrite niter_S, IHk. reflexivity. Qed.
Lemma vectors_other s i : i <> S (l_niter s) -> l_vectors (iteration s) i = l_vectors s i.
Proof.
  intros N. assert (forall x, set (l_vectors s) (S (l_niter s)) x i = l_vectors s i) as H. { intros x. unfold set. destruct (Nat.eqb_spec i (S (l_niter s))); [congruence|reflexivity]. }
  unfold LanModel.iteration. destruct (l_vectors s (S (l_niter s) - 1)%nat); [|apply H]. destruct (Nat.ltb 1 _); [|apply H]. destruct (l_beta s _); [|apply H]. destruct (l_vectors s (S (l_niter s) - 2)%nat); apply H.
Qed.
Lemma alpha_other s i : i <> l_niter s -> l_alpha (iteration s) i = l_alpha s i /\ l_beta (iteration s) i = l_beta s i.
Proof.
  intros N. assert (forall X (f : nat -> X) x, set f (S (l_niter s) - 1)%nat x i = f i) as H. { intros X f x. unfold set. destruct (Nat.eqb_spec i (S (l_niter s) - 1)); [lia|reflexivity]. }
  unfold LanModel.iteration. destruct (l_vectors s (S (l_niter s) - 1)%nat); [|split; apply H]. destruct (Nat.ltb 1 _); [|split; apply H]. destruct (l_beta s _); [|split; apply H]. destruct (l_vectors s (S (l_niter s) - 2)%nat); split; apply H.
Qed.
Definition V (i : nat) : option vec := l_vectors (at_ i) i.
Definition Al (i : nat) : option K := l_alpha (at_ (S i)) i.
Definition Be (i : nat) : option K := l_beta (at_ (S i)) i.
Lemma at_S k : at_ (S k) = iteration (at_ k). Proof. reflexivity. Qed.
Lemma stable_v k i : (i <= k)%nat -> l_vectors (at_ k) i = V i.
Proof. induction k as [|k IH]; intros H. { replace i with 0%nat by lia. reflexivity. } destruct (Nat.eq_dec i (S k)) as [->|]; [reflexivity|]. rewrite at_S, vectors_other by (rewrite niter; lia). apply IH. lia. Qed.
Lemma stable_c k i : (i < k)%nat -> l_alpha (at_ k) i = Al i /\ l_beta (at_ k) i = Be i.
Proof. induction k as [|k IH]; intros H; [lia|]. destruct (Nat.eq_dec i k) as [->|]; [split; reflexivity|]. rewrite at_S. destruct (alpha_other (at_ k) i) as [-> ->]; [rewrite niter; lia|]. apply IH. lia. Qed.
Lemma later k i : (k <= i)%nat -> l_alpha (at_ k) i = Some 0 /\ l_beta (at_ k) i = Some 0.
Proof. induction k as [|k IH]; intros H; [split; reflexivity|]. rewrite at_S. destruct (alpha_other (at_ k) i) as [-> ->]; [rewrite niter; lia|]. apply IH. lia. Qed.
Lemma later_v k i : (k < i)%nat -> l_vectors (at_ k) i = Some (fun _ => 0).
Proof. induction k as [|k IH]; intros H. { cbn. unfold set. destruct (Nat.eqb_spec i 0); [lia|reflexivity]. } rewrite at_S, vectors_other by (rewrite niter; lia). apply IH. lia. Qed.

Definition vv k : vec := vector (V k).
Definition aa k : K := number (Al k).
Definition bb k : K := number (Be k).
Definition prev (k : nat) (i : nat) : K := match k with O => 0 | S k' => bb k' * vv k' i end.
(** what iteration number k + 1 computes *)
Lemma step_raw k : (Al k, Be k, V (S k)) =
  match V k with
  | None => (None, None, None)
  | Some v => match (match k with O => Some (app v) | S k' => match Be k', V k' with Some b, Some u => Some (fun i => app v i - b * u i) | _, _ => None end end) with
    | None => (None, None, None)
    | Some w => let a := dot w v in let w' := fun i => w i - a * v i in let b := norm n sqrt w' in (Some a, Some b, divided w' b)
    end
  end.
Proof.
  unfold Al, Be, V at 1. rewrite at_S. unfold LanModel.iteration. rewrite niter. replace (S k - 1)%nat with k by lia. fold (V k).
  assert (E : forall X (f : nat -> X) j x, set f j x j = x) by (intros; unfold set; rewrite Nat.eqb_refl; reflexivity).
  destruct (V k) as [v|]; [|cbn [l_alpha l_beta l_vectors]; rewrite !E; reflexivity].
  destruct k as [|k'].
  - cbn [Nat.ltb Nat.leb]. cbn [l_alpha l_beta l_vectors]. rewrite !E. reflexivity.
  - replace (Nat.ltb 1 (S (S k'))) with true by (symmetry; apply Nat.ltb_lt; lia). replace (S (S k') - 2)%nat with k' by lia. destruct (stable_c (S k') k' ltac:(lia)) as [_ ->]. rewrite (stable_v (S k') k') by lia.
    change (l_beta (iteration (at_ k')) k') with (Be k').
    destruct (Be k') as [b|]; [|cbn [l_alpha l_beta l_vectors]; rewrite !E; reflexivity]. destruct (V k') as [u|]; [|cbn [l_alpha l_beta l_vectors]; rewrite !E; reflexivity].
    cbn [l_alpha l_beta l_vectors]. rewrite !E. reflexivity.
Qed.
Lemma down k : V (S k) <> None -> V k <> None.
Proof. intros H E. pose proof (step_raw k) as S. rewrite E in S. injection S as _ _ S. congruence. Qed.
Lemma down_le i k : (i <= k)%nat -> V k <> None -> V i <> None.
Proof. induction k as [|k IH]; intros H N. { replace i with 0%nat by lia. exact N. } destruct (Nat.eq_dec i (S k)) as [->|]; [exact N|]. apply IH; [lia|]. apply down. exact N. Qed.
Lemma coefficients_some k : V k <> None -> Al k = Some (aa k) /\ Be k = Some (bb k).
Proof.
  intros H. assert (exists a b, Al k = Some a /\ Be k = Some b) as (a & b & Ea & Eb).
  { pose proof (step_raw k) as S. destruct (V k) as [v|] eqn:Ev; [|congruence]. destruct k as [|k']. { injection S as -> -> _. eauto. }
    pose proof (step_raw k') as S'. rewrite Ev in S'. destruct (V k') as [u|] eqn:Eu; [|discriminate]. destruct (match k' with O => _ | _ => _ end); [|discriminate]. injection S' as _ Eb _. rewrite Eb in S. injection S as -> -> _. eauto. }
  unfold aa, bb. rewrite Ea, Eb. split; reflexivity.
Qed.
Lemma step_ok k : V k <> None -> let w := fun i => app (vv k) i - prev k i in let w' := fun i => w i - aa k * vv k i in
  aa k = dot w (vv k) /\ bb k = sqrt (dot w' w') /\ (bb k = 0 -> V (S k) = None) /\ (bb k <> 0 -> V (S k) <> None /\ forall i, vv (S k) i = div (w' i) (bb k)).
Proof.
  intros H. destruct (V k) as [v|] eqn:Ev; [|congruence]. assert (vv k = v) as Evv by (unfold vv; rewrite Ev; reflexivity). cbv zeta. rewrite Evv.
  assert (exists w, (Al k, Be k, V (S k)) = (let a := dot w v in let w' := fun i => w i - a * v i in let b := norm n sqrt w' in (Some a, Some b, divided w' b)) /\ forall i, w i = app v i - prev k i) as (w & Q & W).
  { pose proof (step_raw k) as Q. rewrite Ev in Q. destruct k as [|k']. { exists (app v). split; [exact Q|]. intros i. cbn [prev]. ring. }
    assert (V k' <> None) as N by (apply down; congruence). destruct (coefficients_some k' N) as [_ Eb]. rewrite Eb in Q. destruct (V k') as [u|] eqn:Eu; [|congruence].
    exists (fun i => app v i - bb k' * u i). split; [exact Q|]. intros i. cbn [prev]. unfold vv. rewrite Eu. reflexivity. }
  cbv zeta in Q. injection Q as Qa Qb Qv.
  assert (aa k = dot w v) as Ea by (unfold aa; rewrite Qa; reflexivity). assert (bb k = norm n sqrt (fun i => w i - dot w v * v i)) as Eb by (unfold bb; rewrite Qb; reflexivity).
  assert (dot w v = dot (fun i => app v i - prev k i) v) as Ew by (apply dot_ext; intros; auto).
  split; [congruence|]. split. { rewrite Eb. unfold norm. f_equal. apply dot_ext; intros; rewrite W, Ea; reflexivity. }
  rewrite <- Eb in Qv. unfold divided in Qv. split.
  - intros E. rewrite E in Qv. rewrite (proj2 (eqb_ok K 0 0) eq_refl) in Qv. exact Qv.
  - intros E. pose proof (eqb_spec (bb k) 0) as B. destruct (eqb (bb k) 0); [congruence|]. split; [congruence|]. intros i. unfold vv. rewrite Qv. cbn [vector]. rewrite W, Ea. reflexivity.
Qed.
Lemma root_ok w : sqrt (dot w w) * sqrt (dot w w) = dot w w.
Proof. exact (R w). Qed.
Lemma zero_root w : sqrt (dot w w) = 0 -> null n w.
Proof. intros E. apply dot_self_zero. rewrite <- (root_ok w). rewrite E. ring. Qed.
Lemma relation k i : V k <> None -> (i < n)%nat -> app (vv k) i = prev k i + aa k * vv k i + bb k * vv (S k) i.
Proof.
  intros H Hi. destruct (step_ok k H) as (_ & Eb & E0 & E1). destruct (eq_dec (bb k) 0) as [Z|N].
  - rewrite Z in *. symmetry in Eb. apply zero_root in Eb. specialize (Eb i Hi). cbv beta in Eb. transitivity (prev k i + aa k * vv k i + (app (vv k) i - prev k i - aa k * vv k i)); [ring|]. rewrite Eb. ring.
  - destruct (E1 N) as [_ ->]. rewrite (rmul_comm (bb k)). rewrite div_mul by exact N. ring.
Qed.
Lemma unit_S k : V (S k) <> None -> dot (vv (S k)) (vv (S k)) = 1.
Proof.
  intros H. destruct (step_ok k (down k H)) as (_ & Eb & E0 & E1). destruct (eq_dec (bb k) 0) as [Z|N]; [exfalso; auto|]. destruct (E1 N) as [_ E].
  set (w := fun i => app (vv k) i - prev k i - aa k * vv k i) in *.
  rewrite (dot_ext n _ _ (fun i => inv (bb k) * w i) (fun i => inv (bb k) * w i)) by (intros i _; rewrite E; unfold div; fold (w i); ring).
  rewrite dot_scal_l, dot_comm, dot_scal_l. transitivity (inv (bb k) * inv (bb k) * (sqrt (dot w w) * sqrt (dot w w))). { rewrite (root_ok w). ring. }
  rewrite <- Eb. transitivity ((bb k * inv (bb k)) * (bb k * inv (bb k))); [ring|]. rewrite inv_ok by exact N. ring.
Qed.
Lemma unit_0 : V 0 <> None -> dot (vv 0) (vv 0) = 1.
Proof.
  unfold vv, V. cbn. unfold set. cbn. unfold divided. pose proof (eqb_spec (norm n sqrt v0) 0) as B. destruct (eqb (norm n sqrt v0) 0); [congruence|]. intros _. cbn [vector].
  set (c := norm n sqrt v0) in *. rewrite (dot_ext n _ _ (fun i => inv c * v0 i) (fun i => inv c * v0 i)) by (intros i _; unfold div; ring).
  rewrite dot_scal_l, dot_comm, dot_scal_l. transitivity (inv c * inv c * (c * c)). { unfold c, norm. rewrite (root_ok v0). ring. } transitivity ((c * inv c) * (c * inv c)); [ring|]. rewrite inv_ok by exact B. ring.
Qed.
Lemma unit k : V k <> None -> dot (vv k) (vv k) = 1.
Proof. destruct k; [apply unit_0|apply unit_S]. Qed.

Lemma defined_all k : ~ null n v0 -> (forall j, (S j < k)%nat -> l_beta (at_ k) j <> Some 0) -> forall j, (j < k)%nat -> V j <> None.
Proof.
  intros N B j. induction j as [|j IH]; intros Hj.
  - unfold V. cbn. unfold set. cbn. unfold divided. pose proof (eqb_spec (norm n sqrt v0) 0) as E. destruct (eqb (norm n sqrt v0) 0); [|discriminate]. exfalso. apply N. apply zero_root. exact E.
  - specialize (IH ltac:(lia)). destruct (step_ok j IH) as (_ & _ & _ & E1). apply E1. intros Z. apply (B j Hj). destruct (stable_c k j ltac:(lia)) as [_ ->]. destruct (coefficients_some j IH) as [_ ->]. rewrite Z. reflexivity.
Qed.

Context (Sy : symmetric n A).
Lemma swap x y : dot (app x) y = dot x (app y).
Proof. rewrite dot_comm. apply apply_sym. exact Sy. Qed.
Lemma dot_app_l k y : V k <> None -> dot (app (vv k)) y = (match k with O => 0 | S k' => bb k' * dot (vv k') y end) + aa k * dot (vv k) y + bb k * dot (vv (S k)) y.
Proof.
  intros H. rewrite (dot_ext n _ _ (fun i => (prev k i + aa k * vv k i) + bb k * vv (S k) i) y) by (intros; auto; apply relation; auto).
  rewrite !dot_add_l, !dot_scal_l. f_equal. f_equal. destruct k; cbn [prev]. { apply dot_null. auto. } apply dot_scal_l.
Qed.
Lemma orthogonal_v : forall k, V k <> None -> forall j, (j < k)%nat -> dot (vv k) (vv j) = 0.
Proof.
  induction k as [k IH] using lt_wf_ind. intros H j Hj. destruct k as [|k]; [lia|]. pose proof (down k H) as Hk.
  destruct (step_ok k Hk) as (Ea & _ & E0 & E1). destruct (eq_dec (bb k) 0) as [Z|N]; [exfalso; auto|]. destruct (E1 N) as [_ E]. clear E0 E1.
  assert (IHs : forall a b, (a < b)%nat -> (b <= k)%nat -> dot (vv b) (vv a) = 0) by (intros a b Hab Hb; apply IH; [lia|apply (down_le b k); [lia|exact Hk]|exact Hab]).
  assert (D : bb k * dot (vv (S k)) (vv j) = dot (app (vv k)) (vv j) - (match k with O => 0 | S k' => bb k' * dot (vv k') (vv j) end) - aa k * dot (vv k) (vv j)). { rewrite (dot_app_l k (vv j) Hk). ring. }
  assert (bb k * dot (vv (S k)) (vv j) = 0) as Z. 2:{ apply mul_zero in Z as [Z|Z]; [congruence|exact Z]. }
  rewrite D. clear D. destruct (Nat.eq_dec j k) as [->|Njk].
  - rewrite (unit k Hk). transitivity (dot (fun i => app (vv k) i - prev k i) (vv k) - aa k); [|rewrite <- Ea; ring]. rewrite dot_sub_l.
    assert (dot (prev k) (vv k) = match k with O => 0 | S k' => bb k' * dot (vv k') (vv k) end) as P. { destruct k; cbn [prev]; [apply dot_null; auto|apply dot_scal_l]. }
    change (dot (fun i => prev k i) (vv k)) with (dot (prev k) (vv k)). rewrite P. ring.
  - rewrite swap, dot_comm. rewrite (IHs j k) by lia. rewrite (dot_app_l j (vv k)) by (apply (down_le j k); [lia|exact Hk]).
    rewrite (dot_comm n (vv j) (vv k)), (IHs j k) by lia.
    assert ((match j with O => 0 | S j' => bb j' * dot (vv j') (vv k) end) = 0) as ->. { destruct j as [|j']; [reflexivity|]. rewrite dot_comm, (IHs j' k) by lia. ring. }
    destruct k as [|k']; [lia|]. destruct (Nat.eq_dec j k') as [->|].
    + rewrite (unit (S k') Hk), (unit k') by (apply (down_le k' (S k')); [lia|exact Hk]). ring.
    + rewrite (dot_comm n (vv (S j)) (vv (S k'))), (IHs (S j) (S k')) by lia. rewrite (dot_comm n (vv k') (vv j)) || idtac. rewrite (dot_comm n (vv j) (vv k')) || idtac. rewrite (IHs j k') by lia. ring.
Qed.
Lemma orthonormal_v k : (forall j, (j < k)%nat -> V j <> None) -> LanSpec.orthonormal n k vv.
Proof.
  intros H i j Hi Hj. change (inner n (vv i) (vv j)) with (dot (vv i) (vv j)). destruct (Nat.eqb_spec i j) as [->|N]; [apply unit; auto|]. destruct (Nat.lt_total i j) as [L|[L|L]]; [|congruence|].
  - rewrite dot_comm. apply orthogonal_v; auto. - apply orthogonal_v; auto.
Qed.
Lemma collapse : (1 : K) = 0 -> forall a b : K, a = b.
Proof. intros H a b. transitivity (a * 1); [ring|]. transitivity (b * 1); [|ring]. rewrite H. ring. Qed.
Lemma basis (v : nat -> vec) (x : vec) i : LanSpec.orthonormal n n v -> (i < n)%nat -> x i = sum n (fun l => dot x (v l) * v l i).
Proof.
  intros O Hi. destruct (eq_dec (1 : K) 0) as [Z|N]; [apply collapse; exact Z|].
  set (y := fun i => x i - sum n (fun l => dot x (v l) * v l i)).
  assert (Y : forall l, (l < n)%nat -> dot y (v l) = 0).
  { intros l Hl. unfold y. rewrite dot_sub_l. change (dot (fun i => x i) (v l)) with (dot x (v l)). rewrite (dot_sum_l n n (fun m => dot x (v m)) v (v l)).
    rewrite (sum_single n _ l Hl). { change (dot (v l) (v l)) with (inner n (v l) (v l)). rewrite O, Nat.eqb_refl by auto. ring. }
    intros m Hm Nm. change (dot (v m) (v l)) with (inner n (v m) (v l)). rewrite O by auto. destruct (Nat.eqb_spec m l); [congruence|ring]. }
  destruct (dependent N n (S n) (fun l => if (l <? n)%nat then v l else y) ltac:(lia)) as (c & (l0 & Hl0 & C) & E).
  assert (E' : forall j, (j < n)%nat -> sum n (fun l => c l * v l j) + c n * y j = 0).
  { intros j Hj. rewrite <- (E j Hj). cbn [sum]. rewrite Nat.ltb_irrefl. f_equal. apply sum_ext. intros l Hl. destruct (Nat.ltb_spec l n); [reflexivity|lia]. }
  assert (Cz : forall l, (l < n)%nat -> c l = 0).
  { intros l Hl. transitivity (dot (fun j => sum n (fun l => c l * v l j) + c n * y j) (v l)).
    - rewrite dot_add_l, dot_scal_l, Y by exact Hl. rewrite (dot_sum_l n n c v (v l)). rewrite (sum_single n _ l Hl). { change (dot (v l) (v l)) with (inner n (v l) (v l)). rewrite O, Nat.eqb_refl by auto. ring. }
      intros m Hm Nm. change (dot (v m) (v l)) with (inner n (v m) (v l)). rewrite O by auto. destruct (Nat.eqb_spec m l); [congruence|ring].
    - apply dot_null. exact E'. }
  assert (c n <> 0) as Cn. { destruct (Nat.eq_dec l0 n) as [->|]; [exact C|]. exfalso. apply C, Cz. lia. }
  specialize (E' i Hi). rewrite sum_zero in E' by (intros l Hl; rewrite Cz by exact Hl; ring).
  assert (y i = 0) as Z. { apply (mul_cancel (c n)); [exact Cn|]. transitivity (0 + c n * y i); [ring|]. rewrite E'. ring. }
  unfold y in Z. transitivity (x i - sum n (fun l => dot x (v l) * v l i) + sum n (fun l => dot x (v l) * v l i)); [ring|]. rewrite Z. ring.
Qed.
Lemma too_many_v (v : nat -> vec) : (1 : K) <> 0 -> ~ LanSpec.orthonormal n (S n) v.
Proof.
  intros N O. destruct (dependent N n (S n) v ltac:(lia)) as (c & (l & Hl & C) & E). apply C.
  transitivity (dot (fun j => sum (S n) (fun l => c l * v l j)) (v l)); [|apply dot_null; exact E].
  rewrite (dot_sum_l n (S n) c v (v l)). rewrite (sum_single (S n) _ l Hl). { change (dot (v l) (v l)) with (inner n (v l) (v l)). rewrite O, Nat.eqb_refl by auto. ring. }
  intros m Hm Nm. change (dot (v m) (v l)) with (inner n (v m) (v l)). rewrite O by auto. destruct (Nat.eqb_spec m l); [congruence|ring].
Qed.

Definition T : nat -> nat -> K := tridiagonal aa bb.
Lemma T_split a b : T a b = (if Nat.eqb a b then aa b else 0) + (if Nat.eqb a (S b) then bb b else 0) + (if Nat.eqb b (S a) then bb a else 0).
Proof. unfold T, tridiagonal. destruct (Nat.eqb_spec a b); destruct (Nat.eqb_spec a (S b)); destruct (Nat.eqb_spec b (S a)); try lia; subst; ring. Qed.
Lemma sum_pick k (g : nat -> K) p : sum k (fun a => if Nat.eqb a p then g a else 0) = if (p <? k)%nat then g p else 0.
Proof.
  destruct (Nat.ltb_spec p k) as [L|L]. - rewrite (sum_single k _ p L), Nat.eqb_refl; [reflexivity|]. intros i _ N. destruct (Nat.eqb_spec i p); congruence.
  - apply sum_zero. intros i Hi. destruct (Nat.eqb_spec i p); [lia|reflexivity].
Qed.
Lemma column k b i : (b < k)%nat -> sum k (fun a => vv a i * T a b) = prev b i + aa b * vv b i + (if (S b <? k)%nat then bb b * vv (S b) i else 0).
Proof.
  intros Hb. rewrite (sum_ext k _ (fun a => (if Nat.eqb a b then vv a i * aa b else 0) + (if Nat.eqb a (S b) then vv a i * bb b else 0) + (if Nat.eqb b (S a) then vv a i * bb a else 0))).
  2:{ intros a _. rewrite T_split. destruct (Nat.eqb a b); destruct (Nat.eqb a (S b)); destruct (Nat.eqb b (S a)); ring. }
  rewrite !sum_add. rewrite (sum_pick k (fun a => vv a i * aa b)), (sum_pick k (fun a => vv a i * bb b)). destruct (Nat.ltb_spec b k); [|lia].
  assert (sum k (fun a => if Nat.eqb b (S a) then vv a i * bb a else 0) = prev b i) as ->.
  { destruct b as [|b']; cbn [prev]. { apply sum_zero. reflexivity. } rewrite (sum_ext k _ (fun a => if Nat.eqb a b' then vv a i * bb a else 0)).
    - rewrite (sum_pick k (fun a => vv a i * bb a)). destruct (Nat.ltb_spec b' k); [ring|lia].
    - intros a _. cbn [Nat.eqb]. rewrite Nat.eqb_sym. reflexivity. }
  destruct (S b <? k)%nat; ring.
Qed.
(** A V = V T + beta v e_k *)
Lemma relation_T k b i : V b <> None -> (b < k)%nat -> (i < n)%nat -> app (vv b) i = sum k (fun a => vv a i * T a b) + (if Nat.eqb (S b) k then bb b * vv k i else 0).
Proof.
  intros H Hb Hi. rewrite (relation b i H Hi), (column k b i Hb). destruct (Nat.eqb_spec (S b) k) as [<-|]. - rewrite Nat.ltb_irrefl. ring. - destruct (Nat.ltb_spec (S b) k); [ring|lia].
Qed.

Context (eig : nat -> (nat -> nat -> K) -> (nat -> K) * (nat -> nat -> K)) (k : nat) (EO : decomposes eig k (matrix_T (at_ k))).
Lemma alpha_v j : Al j <> None -> V j <> None.
Proof. intros H E. pose proof (step_raw j) as Q. rewrite E in Q. injection Q as Q _ _. congruence. Qed.
Lemma finalize_defined wv : finalize eig k (at_ k) = Ok wv -> (0 < k)%nat /\ forall j, (j < k)%nat -> V j <> None.
Proof.
  unfold finalize. intros H. destruct (Nat.eqb_spec k 0); [discriminate|]. split; [lia|]. destruct (forallb (fun j => is_some (l_beta _ j)) _); [|discriminate]. destruct (forallb (fun j => is_some (l_alpha _ j)) _) eqn:F; [|discriminate].
  intros j Hj. apply alpha_v. rewrite forallb_forall in F. specialize (F j ltac:(apply in_seq; lia)). destruct (stable_c k j Hj) as [E _]. rewrite E in F. destruct (Al j); [discriminate|discriminate].
Qed.
Lemma finalize_ok : (0 < k)%nat -> (forall j, (j < k)%nat -> V j <> None) -> exists wv, finalize eig k (at_ k) = Ok wv /\
  (forall i j, approximation k wv i j = sum k (fun a => sum k (fun b => vv a i * T a b * vv b j))) /\
  (forall l m, (l < k)%nat -> (m < k)%nat -> sum n (fun i => snd wv i l * snd wv i m) = if Nat.eqb l m then 1 else 0).
Proof.
  intros Hk H. unfold finalize. destruct (Nat.eqb_spec k 0); [lia|].
  assert (forallb (fun j => is_some (l_beta (at_ k) j)) (seq 0 (k - 1)) = true) as ->. { apply forallb_forall. intros j Hj. apply in_seq in Hj. destruct (stable_c k j ltac:(lia)) as [_ ->]. destruct (coefficients_some j) as [_ ->]; [apply H; lia|reflexivity]. }
  assert (forallb (fun j => is_some (l_alpha (at_ k) j)) (seq 0 k) = true) as ->. { apply forallb_forall. intros j Hj. apply in_seq in Hj. destruct (stable_c k j ltac:(lia)) as [-> _]. destruct (coefficients_some j) as [-> _]; [apply H; lia|reflexivity]. }
  cbn [negb]. fold (matrix_T (at_ k)). set (T' := matrix_T (at_ k)) in *.
  assert (TT : forall i j, (i < k)%nat -> (j < k)%nat -> T' i j = T i j).
  { intros i j Hi Hj. unfold T', matrix_T, T, tridiagonal, aa, bb. destruct (stable_c k i Hi) as [-> ->]. destruct (stable_c k j Hj) as [_ ->]. reflexivity. }
  pose proof EO as E. unfold decomposes in E. fold T' in E. destruct (eig k T') as [w z]. destruct E as [E1 E2]. exists (w, fun i l => sum k (fun j => vector (l_vectors (at_ k) j) i * z j l)). split; [reflexivity|]. cbn [fst snd].
  assert (VV : forall i l, sum k (fun j => vector (l_vectors (at_ k) j) i * z j l) = sum k (fun j => vv j i * z j l)). { intros i l. apply sum_ext. intros j Hj. rewrite stable_v by lia. reflexivity. }
  split.
  - intros i j. unfold approximation, eigen. cbn [fst snd].
    rewrite (sum_ext k _ (fun l => sum k (fun a => sum k (fun b => vv a i * (z a l * w l * z b l) * vv b j)))).
    2:{ intros l _. rewrite !VV. rewrite <- sum_mul_r. apply sum_ext. intros a _. rewrite <- !sum_mul_l. apply sum_ext. intros b _. ring. }
    rewrite sum_swap. apply sum_ext. intros a Ha. rewrite sum_swap. apply sum_ext. intros b Hb. rewrite sum_mul_r, sum_mul_l. rewrite E1, TT by assumption. reflexivity.
  - intros l m Hl Hm. rewrite <- (E2 l m Hl Hm).
    rewrite (sum_ext n _ (fun i => sum k (fun a => sum k (fun b => (z a l * z b m) * (vv a i * vv b i))))).
    2:{ intros i _. rewrite !VV. rewrite <- sum_mul_r. apply sum_ext. intros a _. rewrite <- !sum_mul_l. apply sum_ext. intros b _. ring. }
    rewrite sum_swap. apply sum_ext. intros a Ha. rewrite sum_swap. rewrite (sum_single k _ a Ha).
    + rewrite sum_mul_l. rewrite (orthonormal_v k H a a Ha Ha : sum n (fun i => vv a i * vv a i) = _), Nat.eqb_refl. ring.
    + intros b Hb N. rewrite sum_mul_l. rewrite (orthonormal_v k H a b Ha Hb : sum n (fun i => vv a i * vv b i) = _). destruct (Nat.eqb_spec a b); [congruence|ring].
Qed.
Lemma approximation_v wv b i : finalize eig k (at_ k) = Ok wv -> (b < k)%nat -> times n (approximation k wv) (vv b) i = sum k (fun a => vv a i * T a b).
Proof.
  intros F Hb. destruct (finalize_defined wv F) as [Hk H]. destruct (finalize_ok Hk H) as (wv' & F' & E & _). rewrite F in F'. injection F' as <-.
  unfold times. rewrite (sum_ext n _ (fun j => sum k (fun a => sum k (fun c => (vv a i * T a c) * (vv c j * vv b j))))).
  2:{ intros j _. rewrite E. rewrite <- sum_mul_r. apply sum_ext. intros a _. rewrite <- sum_mul_r. apply sum_ext. intros c _. ring. }
  rewrite sum_swap. apply sum_ext. intros a _. rewrite sum_swap. rewrite (sum_single k _ b Hb).
  + rewrite sum_mul_l. rewrite (orthonormal_v k H b b Hb Hb : sum n (fun i => vv b i * vv b i) = _), Nat.eqb_refl. ring.
  + intros c Hc N. rewrite sum_mul_l. rewrite (orthonormal_v k H c b Hc Hb : sum n (fun i => vv c i * vv b i) = _). destruct (Nat.eqb_spec c b); [congruence|ring].
Qed.
Lemma agree wv b i : finalize eig k (at_ k) = Ok wv -> (S b < k)%nat \/ b = (k - 1)%nat /\ (forall i, (i < n)%nat -> bb b * vv k i = 0) -> (b < k)%nat -> (i < n)%nat -> times n (approximation k wv) (vv b) i = app (vv b) i.
Proof.
  intros F D Hb Hi. destruct (finalize_defined wv F) as [Hk H]. rewrite (approximation_v wv b i F Hb), (relation_T k b i (H b Hb) Hb Hi). destruct (Nat.eqb_spec (S b) k); [|ring].
  destruct D as [D|[_ D]]; [lia|]. rewrite D by exact Hi. ring.
Qed.
Lemma entries wv a b : finalize eig k (at_ k) = Ok wv -> (a < k)%nat -> (b < k)%nat ->
  inner n (vv a) (times n (approximation k wv) (vv b)) = T a b /\ inner n (vv a) (times n A (vv b)) = T a b.
Proof.
  intros F Ha Hb. destruct (finalize_defined wv F) as [Hk H].
  assert (G : inner n (vv a) (fun i => sum k (fun c => vv c i * T c b)) = T a b).
  { unfold inner. rewrite (sum_ext n _ (fun i => sum k (fun c => T c b * (vv a i * vv c i)))). 2:{ intros i _. rewrite <- sum_mul_l. apply sum_ext. intros c _. ring. }
    rewrite sum_swap. rewrite (sum_single k _ a Ha).
    + rewrite sum_mul_l. rewrite (orthonormal_v k H a a Ha Ha : sum n (fun i => vv a i * vv a i) = _), Nat.eqb_refl. ring.
    + intros c Hc N. rewrite sum_mul_l. rewrite (orthonormal_v k H a c Ha Hc : sum n (fun i => vv a i * vv c i) = _). destruct (Nat.eqb_spec a c); [congruence|ring]. }
  split. { rewrite <- G. apply dot_ext; [reflexivity|]. intros i Hi. apply approximation_v; assumption. }
  rewrite <- G. transitivity (inner n (vv a) (fun i => sum k (fun c => vv c i * T c b) + (if Nat.eqb (S b) k then bb b * vv k i else 0))).
  { apply dot_ext; [reflexivity|]. intros i Hi. apply (relation_T k b i (H b Hb) Hb Hi). }
  change inner with (@CgModel.dot K). rewrite dot_comm, dot_add_l, (dot_comm n (fun i => sum k _)). 
  assert (dot (fun i => if Nat.eqb (S b) k then bb b * vv k i else 0) (vv a) = 0) as ->; [|ring].
  destruct (Nat.eqb_spec (S b) k) as [<-|]; [|apply dot_null; reflexivity]. destruct (V (S b)) as [u|] eqn:E.
  - rewrite dot_scal_l, (orthogonal_v (S b)) by (congruence || lia). ring.
  - apply dot_null. intros i _. unfold vv. rewrite E. cbn [vector]. ring.
Qed.
Lemma krylov wv m : finalize eig k (at_ k) = Ok wv -> (m < k)%nat ->
  (exists c, forall i, (i < n)%nat -> iterate n A m (vv 0) i = sum (S m) (fun l => c l * vv l i)) /\ forall i, (i < n)%nat -> iterate n (approximation k wv) m (vv 0) i = iterate n A m (vv 0) i.
Proof.
  intros F. destruct (finalize_defined wv F) as [Hk H]. induction m as [|m IH]; intros Hm.
  - split; [|reflexivity]. exists (fun _ => 1). intros i Hi. cbn [iterate sum]. ring.
  - destruct (IH ltac:(lia)) as [(c & C) E]. clear IH.
    assert (L : forall B i, times n B (iterate n A m (vv 0)) i = sum (S m) (fun l => c l * times n B (vv l) i)).
    { intros B i. unfold times. rewrite (sum_ext n _ (fun j => sum (S m) (fun l => c l * (B i j * vv l j)))). 2:{ intros j Hj. rewrite C by exact Hj. rewrite <- sum_mul_l. apply sum_ext. intros l _. ring. }
      rewrite sum_swap. apply sum_ext. intros l _. apply sum_mul_l. }
    split.
    + exists (fun l => (match l with O => 0 | S l' => if (l' <? S m)%nat then c l' * bb l' else 0 end) + (if (l <? S m)%nat then c l * aa l else 0) + (if (S l <? S m)%nat then c (S l) * bb l else 0)).
      intros i Hi. cbn [iterate]. rewrite L. rewrite (sum_ext (S m) _ (fun l => c l * prev l i + c l * aa l * vv l i + c l * bb l * vv (S l) i)).
      2:{ intros l Hl. rewrite (relation l i (H l ltac:(lia)) Hi : times n A (vv l) i = _). ring. }
      rewrite !sum_add. rewrite (sum_ext (S (S m)) _ (fun l => (match l with O => 0 | S l' => if (l' <? S m)%nat then c l' * bb l' * vv l i else 0 end) + (if (l <? S m)%nat then c l * aa l * vv l i else 0) + (if (S l <? S m)%nat then c (S l) * bb l * vv l i else 0))).
      2:{ intros l _. destruct l as [|l']; repeat match goal with |- context [if ?t then _ else _] => destruct t end; ring. }
      rewrite !sum_add.
      assert (sum (S (S m)) (fun l => match l with O => 0 | S l' => if (l' <? S m)%nat then c l' * bb l' * vv l i else 0 end) = sum (S m) (fun l => c l * bb l * vv (S l) i)) as ->.
      { rewrite sum_S_l. rewrite (sum_ext (S m) _ (fun l => c l * bb l * vv (S l) i)). { ring. } intros l Hl. destruct (Nat.ltb_spec l (S m)); [reflexivity|lia]. }
      assert (sum (S (S m)) (fun l => if (l <? S m)%nat then c l * aa l * vv l i else 0) = sum (S m) (fun l => c l * aa l * vv l i)) as ->.
      { cbn [sum]. rewrite Nat.ltb_irrefl. destruct (Nat.ltb_spec m (S m)); [|lia]. rewrite (sum_ext m _ (fun l => c l * aa l * vv l i)). { ring. } intros l Hl. destruct (Nat.ltb_spec l (S m)); [reflexivity|lia]. }
      assert (sum (S (S m)) (fun l => if (S l <? S m)%nat then c (S l) * bb l * vv l i else 0) = sum (S m) (fun l => c l * prev l i)) as ->.
      { rewrite (sum_S_l m (fun l => c l * prev l i)). cbn [prev]. set (f := fun l => if (S l <? S m)%nat then c (S l) * bb l * vv l i else 0). change (sum (S (S m)) f) with (sum m f + f m + f (S m)).
        unfold f. destruct (Nat.ltb_spec (S (S m)) (S m)); [lia|]. destruct (Nat.ltb_spec (S m) (S m)); [lia|].
        rewrite (sum_ext m _ (fun l => c (S l) * (bb l * vv l i))). { ring. } intros l Hl. destruct (Nat.ltb_spec (S l) (S m)); [ring|lia]. }
      ring.
    + intros i Hi. cbn [iterate]. transitivity (times n (approximation k wv) (iterate n A m (vv 0)) i). { unfold times. apply sum_ext. intros j Hj. rewrite E by exact Hj. reflexivity. }
      rewrite !L. apply sum_ext. intros l Hl. f_equal. apply agree; auto; lia.
Qed.
Lemma iterate_scal (B : nat -> nat -> K) m c (x : vec) i : iterate n B m (fun j => c * x j) i = c * iterate n B m x i.
Proof. revert i. induction m as [|m IH]; intros i; [reflexivity|]. cbn [iterate]. unfold times. rewrite <- sum_mul_l. apply sum_ext. intros j _. rewrite IH. ring. Qed.
Lemma iterate_ext (B : nat -> nat -> K) m (x y : vec) : (forall i, (i < n)%nat -> x i = y i) -> forall i, (i < n)%nat -> iterate n B m x i = iterate n B m y i.
Proof. intros H. induction m as [|m IH]; intros i Hi; [auto|]. cbn [iterate]. unfold times. apply sum_ext. intros j Hj. rewrite IH by exact Hj. reflexivity. Qed.
Lemma v0_ok i : V 0 <> None -> v0 i = norm n sqrt v0 * vv 0 i.
Proof.
  unfold vv, V. cbn. unfold set. cbn. unfold divided. pose proof (eqb_spec (norm n sqrt v0) 0) as B. destruct (eqb (norm n sqrt v0) 0); [congruence|]. intros _. cbn [vector]. rewrite rmul_comm, div_mul by exact B. reflexivity.
Qed.
Lemma krylov_v0 wv m i : finalize eig k (at_ k) = Ok wv -> (m < k)%nat -> (i < n)%nat -> iterate n (approximation k wv) m v0 i = iterate n A m v0 i.
Proof.
  intros F Hm Hi. destruct (finalize_defined wv F) as [Hk H]. destruct (krylov wv m F Hm) as [_ E].
  assert (G : forall B, iterate n B m v0 i = norm n sqrt v0 * iterate n B m (vv 0) i). { intros B. rewrite <- iterate_scal. apply iterate_ext; [|exact Hi]. intros j _. apply v0_ok. apply H. lia. }
  rewrite !G, E by exact Hi. reflexivity.
Qed.
Lemma exact_ok wv i j : k = n -> finalize eig k (at_ k) = Ok wv -> (i < n)%nat -> (j < n)%nat -> approximation k wv i j = A i j.
Proof.
  intros Ek F Hi Hj. destruct (eq_dec (1 : K) 0) as [Z|N]; [apply collapse; exact Z|]. destruct (finalize_defined wv F) as [Hk H].
  assert (V n = None) as Vn. { destruct (V n) as [u|] eqn:E; [|reflexivity]. exfalso. apply (too_many_v vv N). apply orthonormal_v. intros l Hl. destruct (Nat.eq_dec l n) as [->|]; [congruence|]. apply H. lia. }
  assert (Hn : forall l, (l < n)%nat -> V l <> None) by (intros; apply H; lia).
  set (e := fun i => if Nat.eqb i j then (1 : K) else 0).
  assert (U : forall B, times n B e i = B i j). { intros B. unfold times, e. rewrite (sum_single n _ j Hj), Nat.eqb_refl; [ring|]. intros l _ Nl. destruct (Nat.eqb_spec l j); [congruence|ring]. }
  assert (W : forall B, times n B e i = sum n (fun l => dot e (vv l) * times n B (vv l) i)).
  { intros B. unfold times. rewrite (sum_ext n _ (fun m => sum n (fun l => dot e (vv l) * (B i m * vv l m)))).
    2:{ intros m Hm. rewrite (basis vv e m (orthonormal_v n Hn) Hm) at 1. rewrite <- sum_mul_l. apply sum_ext. intros l _. ring. }
    rewrite sum_swap. apply sum_ext. intros l _. apply sum_mul_l. }
  rewrite <- (U (approximation k wv)), <- (U A), !W. apply sum_ext. intros l Hl. f_equal. apply (agree wv l i F); auto; [|lia].
  destruct (Nat.eq_dec (S l) n) as [E|]; [right|left; lia]. split; [lia|]. intros m _. unfold vv. rewrite Ek, Vn. cbn [vector]. ring.
Qed.
Lemma breakdown wv : (1 : K) <> 0 -> (n < k)%nat -> finalize eig k (at_ k) <> Ok wv.
Proof. intros N Hk F. destruct (finalize_defined wv F) as [_ H]. apply (too_many_v vv N). apply orthonormal_v. intros j Hj. apply H. lia. Qed.
End Lanczos.
