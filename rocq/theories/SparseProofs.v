(** Proofs about the products by sparse matrices *)
From Coq Require FinFun.
From Verif Require Import Base Algebra SparseModel SparseSpec.

Section Proofs.
Context {K : cring}.
Add Ring KringSparse : (rth K).
Local Open Scope cr_scope.

Lemma set_nth_length (y : list K) : forall i v, length (set_nth y i v) = length y.
Proof. induction y; intros [|i] v; cbn [set_nth length]; auto. Qed.
Lemma nth_set_nth (y : list K) : forall i k v, nth k (set_nth y i v) 0 = if (k =? i)%nat && (i <? length y)%nat then v else nth k y 0.
Proof.
  induction y as [|a y IH]; intros i k v.
  - cbn [set_nth length]. destruct (i <? 0)%nat eqn:E; [apply Nat.ltb_lt in E; lia|]. rewrite andb_false_r. reflexivity.
  - destruct i as [|i], k as [|k]; cbn [set_nth nth length]; auto. rewrite IH. reflexivity.
Qed.
Lemma list_ext (l l' : list K) : length l = length l' -> (forall k, k < length l -> nth k l 0 = nth k l' 0) -> l = l'.
Proof. intros E H. apply nth_ext with (d := 0) (d' := 0); auto. Qed.
Lemma set_nth_same (y : list K) i : set_nth y i (nth i y 0) = y.
Proof.
  apply list_ext; [apply set_nth_length|]. intros k _. rewrite nth_set_nth. destruct (Nat.eqb_spec k i) as [->|]; cbn [andb]; auto. destruct (i <? length y)%nat; reflexivity.
Qed.
Lemma set_nth_twice (y : list K) i a b : set_nth (set_nth y i a) i b = set_nth y i b.
Proof.
  apply list_ext; [rewrite !set_nth_length; auto|]. intros k _. rewrite !nth_set_nth, set_nth_length. destruct (k =? i)%nat, (i <? length y)%nat; reflexivity.
Qed.

(** All the products are sequences of y[i] += a * x[j] *)
Definition run (x : list K) (ts : list (nat * nat * K)) (y : list K) : list K := fold_left (fun y t => acc x y (fst (fst t)) (snd (fst t)) (snd t)) ts y.
Lemma run_length x ts : forall y, length (run x ts y) = length y.
Proof. induction ts as [|t ts IH]; intros y; auto. unfold run in *. cbn [fold_left]. rewrite IH. apply set_nth_length. Qed.
Lemma run_app x ts ts' y : run x (ts ++ ts') y = run x ts' (run x ts y).
Proof. apply fold_left_app. Qed.
Lemma run_flat {A} x (f : A -> list (nat * nat * K)) l : forall y, run x (flat_map f l) y = fold_left (fun y a => run x (f a) y) l y.
Proof. induction l as [|a l IH]; intros y; auto. cbn [flat_map fold_left]. rewrite run_app. apply IH. Qed.
Lemma run_map {A} x (f : A -> nat * nat * K) l : forall y, run x (map f l) y = fold_left (fun y a => acc x y (fst (fst (f a))) (snd (fst (f a))) (snd (f a))) l y.
Proof. induction l as [|a l IH]; intros y; auto. cbn [map]. unfold run in *. cbn [fold_left]. apply IH. Qed.
(** A running sum of one row *)
Lemma run_row {A} x i (col : A -> nat) (v : A -> K) l : forall y, run x (map (fun a => (i, col a, v a)) l) y = set_nth y i (fold_left (fun s a => s + v a * nth (col a) x 0) l (nth i y 0)).
Proof.
  induction l as [|a l IH]; intros y; [symmetry; apply set_nth_same|]. cbn [map fold_left]. unfold run in *. cbn [fold_left]. rewrite IH. unfold acc. cbn [fst snd]. rewrite set_nth_twice, nth_set_nth, Nat.eqb_refl. cbn [andb].
  destruct (i <? length y)%nat eqn:E; [reflexivity|]. apply Nat.ltb_ge in E. apply list_ext; [rewrite !set_nth_length; auto|]. intros k Hk. rewrite set_nth_length in Hk. rewrite !nth_set_nth. destruct (Nat.eqb_spec k i); [lia|reflexivity].
Qed.
Lemma run_nth x ts : forall y i, i < length y -> nth i (run x ts y) 0 = nth i y 0 + lsum (map (fun t => if (fst (fst t) =? i)%nat then snd t * nth (snd (fst t)) x 0 else 0) ts).
Proof.
  induction ts as [|[[r c] v] ts IH]; intros y i H; [cbn; ring|]. unfold run in *. cbn [fold_left map fst snd]. rewrite IH by (unfold acc; rewrite set_nth_length; auto).
  rewrite lsum_cons. unfold acc. rewrite nth_set_nth. rewrite (Nat.eqb_sym i r). destruct (Nat.eqb_spec r i) as [->|]; cbn [andb]; [|ring].
  replace (i <? length y)%nat with true by (symmetry; apply Nat.ltb_lt; auto). ring.
Qed.
Definition coef (i j : nat) (ts : list (nat * nat * K)) : K := lsum (map (fun t => if (fst (fst t) =? i)%nat && (snd (fst t) =? j)%nat then snd t else 0) ts).
Lemma run_coef x ts y i N : i < length y -> (forall t, In t ts -> snd (fst t) < N) -> nth i (run x ts y) 0 = nth i y 0 + sum N (fun j => coef i j ts * nth j x 0).
Proof.
  intros H B. rewrite run_nth by auto. f_equal. clear H. induction ts as [|[[r c] v] ts IH].
  - cbn. symmetry. apply sum_zero. intros. unfold coef. cbn. ring.
  - cbn [map fst snd]. rewrite lsum_cons, IH by (intros t I; apply B; right; auto).
    rewrite (sum_ext N (fun j => coef i j ((r, c, v) :: ts) * nth j x 0) (fun j => (if (r =? i)%nat && (c =? j)%nat then v else 0) * nth j x 0 + coef i j ts * nth j x 0)).
    2: { intros j _. unfold coef. cbn [map fst snd]. rewrite lsum_cons. ring. }
    rewrite sum_add. f_equal. rewrite (sum_single N _ c).
    + rewrite Nat.eqb_refl, andb_true_r. destruct (r =? i)%nat; ring.
    + apply (B (r, c, v)). left; auto.
    + intros k _ N'. destruct (Nat.eqb_spec c k); [congruence|]. rewrite andb_false_r. ring.
Qed.
Lemma coef_app i j ts ts' : coef i j (ts ++ ts') = coef i j ts + coef i j ts'.
Proof. unfold coef. rewrite map_app. apply lsum_app. Qed.
Lemma coef_flat {A} i j (f : A -> list (nat * nat * K)) l : coef i j (flat_map f l) = lsum (map (fun a => coef i j (f a)) l).
Proof. induction l as [|a l IH]; auto. cbn [flat_map map]. rewrite coef_app, IH. reflexivity. Qed.
Lemma coef_map {A} i j (f : A -> nat * nat * K) l : coef i j (map f l) = lsum (map (fun a => if (fst (fst (f a)) =? i)%nat && (snd (fst (f a)) =? j)%nat then snd (f a) else 0) l).
Proof. unfold coef. rewrite map_map. reflexivity. Qed.
Lemma coef_none i j ts : (forall t, In t ts -> fst (fst t) <> i \/ snd (fst t) <> j) -> coef i j ts = 0.
Proof.
  induction ts as [|t ts IH]; intros H; auto. unfold coef in *. cbn [map]. rewrite lsum_cons, IH by (intros; apply H; right; auto).
  destruct (H t (or_introl eq_refl)) as [N|N]; [destruct (Nat.eqb_spec (fst (fst t)) i)|destruct (Nat.eqb_spec (snd (fst t)) j)]; try congruence; [|rewrite andb_false_r]; cbn; ring.
Qed.
Lemma lsum_map_ext {A} (f g : A -> K) l : (forall a, In a l -> f a = g a) -> lsum (map f l) = lsum (map g l).
Proof. intros H. f_equal. apply map_ext_in; auto. Qed.
Lemma lsum_zero {A} (f : A -> K) l : (forall a, In a l -> f a = 0) -> lsum (map f l) = 0.
Proof. induction l as [|a l IH]; intros H; auto. cbn [map]. rewrite lsum_cons, IH, H by (intros; try apply H; cbn; auto). ring. Qed.
Lemma lsum_one (f : nat -> K) n k : k < n -> (forall i, i < n -> i <> k -> f i = 0) -> lsum (map f (seq 0 n)) = f k.
Proof. intros. rewrite lsum_map_seq. apply sum_single; auto. Qed.

(** The triples of each format *)
Definition triples (m : matrix K) : list (nat * nat * K) :=
  match m with
  | Csr M _ Ap Aj Ax => flat_map (fun i => map (fun n => (i, nth n Aj 0%nat, nth n Ax 0)) (range (nth i Ap 0%nat) (nth (S i) Ap 0%nat))) (seq 0 M)
  | Csc _ N Ap Aj Ax => flat_map (fun j => map (fun n => (nth n Aj 0%nat, j, nth n Ax 0)) (range (nth j Ap 0%nat) (nth (S j) Ap 0%nat))) (seq 0 N)
  | Coo _ _ Ai Aj Ax => map (fun n => (nth n Ai 0%nat, nth n Aj 0%nat, nth n Ax 0)) (seq 0 (length Ax))
  | Bsr M _ R C Ap Aj Ax => flat_map (fun i => flat_map (fun n => flat_map (fun r => map (fun c => ((R * i + r)%nat, (C * nth n Aj 0 + c)%nat, nth (R * C * n + (C * r + c)) Ax 0)) (seq 0 C)) (seq 0 R))
      (range (nth i Ap 0%nat) (nth (S i) Ap 0%nat))) (seq 0 (M / R))
  | Dia M N offsets L data => flat_map (fun d => let k := nth d offsets 0%Z in let a := Z.to_nat (Z.max 0 (- k)) in let b := Z.to_nat (Z.max 0 k) in
      map (fun n => ((a + n)%nat, (b + n)%nat, nth (b + n) (nth d data []) 0)) (seq 0 (Z.to_nat (Z.min (Z.min (Z.of_nat M + k) (Z.of_nat N)) (Z.of_nat L) - Z.of_nat b)))) (seq 0 (length offsets))
  | Dok _ _ items => items
  | Lil _ _ => []
  end.
Lemma fold_ext {A B} (f g : A -> B -> A) l : (forall a b, In b l -> f a b = g a b) -> forall a, fold_left f l a = fold_left g l a.
Proof. induction l as [|b l IH]; intros H a; auto. cbn [fold_left]. rewrite H by (left; auto). apply IH. intros; apply H; right; auto. Qed.
Lemma csr_run M Ap Aj Ax x y N : csr_matvec M Ap Aj Ax x y = run x (triples (Csr M N Ap Aj Ax)) y.
Proof. unfold csr_matvec, triples. rewrite run_flat. apply fold_ext. intros z i _. symmetry. apply (run_row x i (fun n => nth n Aj 0%nat) (fun n => nth n Ax 0)). Qed.
Lemma gemv_run R C A a x b c y : gemv R C A a x b y c = run x (flat_map (fun r => map (fun j => ((c + r)%nat, (b + j)%nat, nth (a + (C * r + j)) A 0)) (seq 0 C)) (seq 0 R)) y.
Proof. unfold gemv. rewrite run_flat. apply fold_ext. intros z r _. symmetry. apply (run_row x (c + r) (fun j => (b + j)%nat) (fun j => nth (a + (C * r + j)) A 0)). Qed.
Lemma one_flat (Aj : list nat) (Ax : list K) n i : flat_map (fun r => map (fun c => ((1 * i + r)%nat, (1 * nth n Aj 0 + c)%nat, nth (1 * 1 * n + (1 * r + c)) Ax 0)) (seq 0 1)) (seq 0 1) = [(i, nth n Aj 0%nat, nth n Ax 0)].
Proof. cbn [seq flat_map map app]. repeat f_equal; lia. Qed.
Lemma flat_one {A B} (f : A -> B) l : flat_map (fun a => [f a]) l = map f l.
Proof. induction l; cbn; congruence. Qed.
Lemma flat_ext {A B} (f g : A -> list B) l : (forall a, f a = g a) -> flat_map f l = flat_map g l.
Proof. intros H. induction l; cbn; congruence. Qed.
Lemma matvec_run m x y : (forall M N, m <> Lil M N) -> matvec m x y = Ok (run x (triples m) y).
Proof.
  intros NL. destruct m as [M N Ap Aj Ax|M N Ap Aj Ax|M N Ai Aj Ax|M N R C Ap Aj Ax|M N offsets L data|M N items|M N]; cbn [matvec]; [f_equal..|].
  - apply csr_run.
  - unfold csc_matvec, triples. rewrite run_flat. apply fold_ext. intros z j _. rewrite run_map. reflexivity.
  - unfold coo_matvec, triples. rewrite run_map. reflexivity.
  - unfold bsr_matvec. destruct ((R =? 1)%nat && (C =? 1)%nat) eqn:E.
    + apply andb_prop in E as (ER & EC). apply Nat.eqb_eq in ER, EC. subst R C. rewrite (csr_run _ _ _ _ _ _ 0). f_equal. cbn [triples]. rewrite Nat.div_1_r. apply flat_ext. intros i.
      rewrite (flat_ext _ (fun n => [(i, nth n Aj 0%nat, nth n Ax 0)])) by (intros n; apply one_flat). symmetry. apply flat_one.
    + cbn [triples]. rewrite run_flat. apply fold_ext. intros z i _. rewrite run_flat. apply fold_ext. intros w n _. apply gemv_run.
  - unfold dia_matvec, triples. rewrite run_flat. apply fold_ext. intros z d _. cbv zeta. rewrite run_map. reflexivity.
  - destruct (NL M N eq_refl).
Qed.

Lemma compressed_range rows cols Ap Aj b i n : compressed rows cols Ap Aj b -> i < rows -> In n (range (nth i Ap 0%nat) (nth (S i) Ap 0%nat)) -> n < b /\ nth n Aj 0%nat < cols.
Proof.
  intros (_ & Mo & La & Eb & B) Hi I. unfold range in I. apply in_seq in I. assert (Q : forall k, k <= rows - S i -> (nth (S i) Ap 0 <= nth (S i + k) Ap 0)%nat).
  { induction k; intros Hk; [rewrite Nat.add_0_r; auto|]. specialize (Mo (S i + k)%nat ltac:(lia)). replace (S i + S k)%nat with (S (S i + k)) by lia. specialize (IHk ltac:(lia)). lia. }
  specialize (Q (rows - S i)%nat ltac:(lia)). replace (S i + (rows - S i))%nat with rows in Q by lia. assert (Hn : n < length Aj) by lia. split; [lia|]. rewrite Forall_forall in B. apply B, nth_In, Hn.
Qed.
Lemma triples_cols m : wf m -> forall t, In t (triples m) -> fst (fst t) < fst (mshape m) /\ snd (fst t) < snd (mshape m).
Proof.
  intros W t I. destruct m as [M N Ap Aj Ax|M N Ap Aj Ax|M N Ai Aj Ax|M N R C Ap Aj Ax|M N offsets L data|M N items|M N]; cbn [mshape fst snd wf triples] in *.
  - apply in_flat_map in I as (i & Hi & I). apply in_map_iff in I as (n & <- & In_). apply in_seq in Hi. cbn [fst snd]. destruct (compressed_range _ _ _ _ _ i n W ltac:(lia) In_). lia.
  - apply in_flat_map in I as (i & Hi & I). apply in_map_iff in I as (n & <- & In_). apply in_seq in Hi. cbn [fst snd]. destruct (compressed_range _ _ _ _ _ i n W ltac:(lia) In_). lia.
  - apply in_map_iff in I as (n & <- & In_). apply in_seq in In_. destruct W as (E1 & E2 & F1 & F2). rewrite Forall_forall in F1, F2. cbn [fst snd]. split; [apply F1|apply F2]; apply nth_In; lia.
  - destruct W as (p & q & nb & HR & HC & -> & -> & _ & W). apply in_flat_map in I as (i & Hi & I). apply in_seq in Hi. rewrite Nat.mul_comm, Nat.div_mul in Hi by lia.
    apply in_flat_map in I as (n & In_ & I). apply in_flat_map in I as (r & Hr & I). apply in_map_iff in I as (c & <- & Hc). apply in_seq in Hr, Hc. cbn [fst snd]. destruct (compressed_range _ _ _ _ _ i n W ltac:(lia) In_) as (_ & B). nia.
  - apply in_flat_map in I as (d & Hd & I). apply in_map_iff in I as (n & <- & Hn). apply in_seq in Hn. cbn [fst snd]. lia.
  - destruct W as (_ & F). rewrite Forall_forall in F. apply F, I.
  - destruct I.
Qed.
Lemma find_coef i j : forall items : list (nat * nat * K), NoDup (map fst items) -> coef i j items = match find (fun t => (fst (fst t) =? i)%nat && (snd (fst t) =? j)%nat) items with Some t => snd t | None => 0 end.
Proof.
  induction items as [|[[r c] v] items IH]; intros ND; auto. cbn [map fst] in ND. apply NoDup_cons_iff in ND as (NI & ND). unfold coef in *. cbn [map find fst snd]. rewrite lsum_cons. destruct ((r =? i)%nat && (c =? j)%nat) eqn:E.
  - apply andb_prop in E as (E1 & E2). apply Nat.eqb_eq in E1, E2. subst. fold (coef i j items). rewrite coef_none; [cbn [snd]; ring|]. intros [[r c] w] I. cbn [fst snd]. destruct (Nat.eq_dec r i) as [->|]; [|auto]. destruct (Nat.eq_dec c j) as [->|]; [|auto].
    exfalso. apply NI. apply in_map_iff. exists (i, j, w). auto.
  - rewrite IH by auto. ring.
Qed.
Lemma coef_entry m i j : wf m -> i < fst (mshape m) -> j < snd (mshape m) -> coef i j (triples m) = entry m i j.
Proof.
  intros W Hi Hj. destruct m as [M N Ap Aj Ax|M N Ap Aj Ax|M N Ai Aj Ax|M N R C Ap Aj Ax|M N offsets L data|M N items|M N]; cbn [mshape fst snd wf triples entry] in *.
  - rewrite coef_flat, (lsum_one _ M i) by (auto; intros k _ Nk; apply coef_none; intros t I; apply in_map_iff in I as (n & <- & _); left; exact Nk).
    rewrite coef_map. apply lsum_map_ext. intros n _. cbn [fst snd]. rewrite Nat.eqb_refl. reflexivity.
  - rewrite coef_flat, (lsum_one _ N j) by (auto; intros k _ Nk; apply coef_none; intros t I; apply in_map_iff in I as (n & <- & _); right; exact Nk).
    rewrite coef_map. apply lsum_map_ext. intros n _. cbn [fst snd]. rewrite Nat.eqb_refl, andb_true_r. reflexivity.
  - rewrite coef_map. reflexivity.
  - destruct W as (p & q & nb & HR & HC & -> & -> & _ & W). assert (Hp : i / R < p) by (apply Nat.div_lt_upper_bound; lia). replace (R * p / R)%nat with p by (rewrite Nat.mul_comm, Nat.div_mul; lia).
    assert (Di := Nat.div_mod i R ltac:(lia)). assert (Mi := Nat.mod_upper_bound i R ltac:(lia)). assert (Dj := Nat.div_mod j C ltac:(lia)). assert (Mj := Nat.mod_upper_bound j C ltac:(lia)).
    rewrite coef_flat, (lsum_one _ p (i / R)); auto.
    2: { intros k _ Nk. apply coef_none. intros t I. apply in_flat_map in I as (n & _ & I). apply in_flat_map in I as (r & Hr & I). apply in_map_iff in I as (c & <- & Hc). apply in_seq in Hr. cbn [fst snd]. left. intros E. apply Nk.
         apply (Nat.div_unique i R k r); lia. }
    rewrite coef_flat. apply lsum_map_ext. intros n _. rewrite coef_flat, (lsum_one _ R (i mod R)) by (auto; intros r Hr Nr; apply coef_none; intros t I; apply in_map_iff in I as (c & <- & _); cbn [fst snd]; left; lia).
    rewrite coef_map. cbn [fst snd]. replace (R * (i / R) + i mod R =? i)%nat with true by (symmetry; apply Nat.eqb_eq; lia). cbn [andb]. destruct (Nat.eqb_spec (nth n Aj 0%nat) (j / C)) as [E|E].
    + rewrite (lsum_one _ C (j mod C)); auto.
      * rewrite E. replace (C * (j / C) + j mod C =? j)%nat with true by (symmetry; apply Nat.eqb_eq; lia). reflexivity.
      * intros c Hc Nc. destruct (Nat.eqb_spec (C * nth n Aj 0%nat + c) j); [lia|reflexivity].
    + apply lsum_zero. intros c Hc. apply in_seq in Hc. destruct (Nat.eqb_spec (C * nth n Aj 0%nat + c) j) as [E'|]; [|reflexivity]. exfalso. apply E. apply (Nat.div_unique j C (nth n Aj 0%nat) c); lia.
  - rewrite coef_flat. apply lsum_map_ext. intros d _. cbv zeta. rewrite coef_map. cbn [fst snd]. set (k := nth d offsets 0%Z). destruct ((k =? Z.of_nat j - Z.of_nat i)%Z && (j <? L)%nat) eqn:E.
    + apply andb_prop in E as (E1 & E2). apply Z.eqb_eq in E1. apply Nat.ltb_lt in E2. rewrite (lsum_one _ _ (j - Z.to_nat (Z.max 0 k))).
      * replace (Z.to_nat (Z.max 0 (- k)) + (j - Z.to_nat (Z.max 0 k)))%nat with i by lia. replace (Z.to_nat (Z.max 0 k) + (j - Z.to_nat (Z.max 0 k)))%nat with j by lia. rewrite !Nat.eqb_refl. reflexivity.
      * lia.
      * intros n _ Nn. destruct (Nat.eqb_spec (Z.to_nat (Z.max 0 k) + n) j); [lia|]. rewrite andb_false_r. reflexivity.
    + apply lsum_zero. intros n Hn. apply in_seq in Hn. destruct (Nat.eqb_spec (Z.to_nat (Z.max 0 (- k)) + n) i) as [E1|]; [|reflexivity]. destruct (Nat.eqb_spec (Z.to_nat (Z.max 0 k) + n) j) as [E2|]; [|reflexivity]. cbn [andb].
      exfalso. apply andb_false_iff in E as [E|E]; [apply Z.eqb_neq in E|apply Nat.ltb_ge in E]; lia.
  - apply find_coef, W.
  - destruct W.
Qed.

(** The product *)
Lemma matvec_times (m : matrix K) x y : wf m -> length y = fst (mshape m) -> exists z, matvec m x y = Ok z /\ length z = length y /\ forall i, i < length y -> nth i z 0 = nth i y 0 + times m x i.
Proof.
  intros W Hy. exists (run x (triples m) y). split; [apply matvec_run; intros M N ->; exact W|]. split; [apply run_length|]. intros i Hi. rewrite (run_coef x (triples m) y i (snd (mshape m)) Hi) by (intros t I; apply (triples_cols m W t I)).
  f_equal. apply sum_ext. intros j Hj. rewrite coef_entry; auto. lia.
Qed.
Lemma ldot_sum (x y : list K) : length x = length y -> ldot x y = sum (length x) (fun i => nth i x 0 * nth i y 0).
Proof.
  revert y. induction x as [|a x IH]; intros [|b y] E; try discriminate E; auto. cbn [length] in *. rewrite ldot_cons, sum_S_l, IH by lia. reflexivity.
Qed.
Lemma transpose_ok (m t : matrix K) : wf m -> transpose m = Some t -> transposes m t /\ wf t.
Proof.
  intros W E. destruct m as [M N Ap Aj Ax|M N Ap Aj Ax|M N Ai Aj Ax|M N R C Ap Aj Ax|M N offsets L data|M N items|M N]; try discriminate E; injection E as <-.
  - split; [split; [reflexivity|intros i j _ _; reflexivity]|exact W].
  - split; [split; [reflexivity|intros i j _ _; reflexivity]|exact W].
  - split; [|cbn in *; intuition auto]. split; [reflexivity|]. intros i j _ _. cbn [entry]. apply lsum_map_ext. intros n _. rewrite andb_comm. reflexivity.
  - destruct W as (ND & F). split.
    + split; [reflexivity|]. intros i j _ _. cbn [entry]. clear. induction items as [|[[r c] v] items IH]; auto. cbn [map find fst snd]. rewrite andb_comm. destruct ((r =? i)%nat && (c =? j)%nat); auto.
    + cbn [wf]. split.
      * rewrite map_map. cbn [fst]. rewrite <- (map_map fst (fun p : nat * nat => (snd p, fst p))). apply FinFun.Injective_map_NoDup; auto. intros [a b] [c d] E. cbn in E. congruence.
      * apply Forall_map. eapply Forall_impl; [|exact F]. cbn. intros t Ht. tauto.
  - destruct W.
Qed.
Lemma adjoint (m t : matrix K) (x y z w : list K) : wf m -> wf t -> transposes m t -> length x = snd (mshape m) -> length y = fst (mshape m) -> (forall i, i < length y -> nth i z 0 = times m x i) -> length z = length y ->
  (forall j, j < length x -> nth j w 0 = times t y j) -> length w = length x -> ldot z y = ldot x w.
Proof.
  intros W Wt (Sh & T) Hx Hy Hz Lz Hw Lw. rewrite !ldot_sum by auto. rewrite Lz.
  rewrite (sum_ext (length y) _ (fun i => sum (length x) (fun j => entry m i j * nth j x 0 * nth i y 0))).
  2: { intros i Hi. rewrite Hz by auto. unfold times. rewrite <- Hx, <- sum_mul_r. reflexivity. }
  rewrite sum_swap. apply sum_ext. intros j Hj. rewrite Hw by auto. unfold times. rewrite Sh. cbn [snd]. rewrite <- Hy, <- sum_mul_l. apply sum_ext. intros i Hi. rewrite T by lia. ring.
Qed.
Lemma scalar_none (is_one : K -> bool) a m : is_one a = false -> (forall M N, m <> Lil M N) -> forall fuel si so, scalar_times is_one fuel a (Sparse m si so) = None.
Proof.
  intros E NL. induction fuel as [|fuel IH]; intros si so; auto. cbn [scalar_times s_matrix]. rewrite E. destruct m; cbn [sparse_operator mshape rbind]; try (rewrite IH; reflexivity). destruct (NL M N eq_refl).
Qed.
End Proofs.
