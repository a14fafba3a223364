(** Proofs for C45: the conjugate gradient. *)
From Verif Require Import Base Algebra Ofield CgModel SpmdModel SpmdSpec SpmdProofs SpmdOps.
Local Open Scope nat_scope.

Section Pcg.
Context {K : ofield} {R : Type}.
Add Ring KringSpmdPcg : (rth K).
Local Open Scope cr_scope.
Notation prog := (prog K R).
Implicit Types u v x y : nat -> K.
Lemma part_zip l i (f : K -> K -> K) u v : zip f (part l i u) (part l i v) = part l i (fun j => f (u j) (v j)). Proof. apply zip_map. Qed.
Lemma part_map l i (f : K -> K) u : map f (part l i u) = part l i (fun j => f (u j)). Proof. apply map_map. Qed.
Lemma part_ext l i u v : (forall j, (fst (l i) <= j < fst (l i) + snd (l i))%nat -> u j = v j) -> part l i u = part l i v.
Proof. intros H. apply map_ext_in. intros j Hj. apply in_seq in Hj. apply H. lia. Qed.
Context (n : nat) (ms : list nat) (l : layout) (A M : nat -> nat -> K) (Aop Mop : nat -> list K -> (list K -> prog) -> prog) (cs : nat -> option comm).
Context (HA : forall x, yields ms (fun i => Aop i (part l i x)) (fun i => part l i (apply n A x))).
Context (HM : forall x, yields ms (fun i => Mop i (part l i x)) (fun i => part l i (apply n M x))).
Context (HD : forall x y, yields (R := R) ms (fun i => dot_p (cs i) (part l i x) (part l i y)) (fun _ => dot n x y)).
Context (b : nat -> K) (tol : K).
Lemma A_bind {B} x (f : nat -> list K -> (B -> prog) -> prog) r : yields ms (fun m => f m (part l m (apply n A x))) r -> yields ms (fun m k => Aop m (part l m x) (fun a => f m a k)) r.
Proof. apply (yields_bind ms _ _ f r (HA x)). Qed.
Lemma M_bind {B} x (f : nat -> list K -> (B -> prog) -> prog) r : yields ms (fun m => f m (part l m (apply n M x))) r -> yields ms (fun m k => Mop m (part l m x) (fun a => f m a k)) r.
Proof. apply (yields_bind ms _ _ f r (HM x)). Qed.
Lemma dot_bind {B} x y (f : nat -> K -> (B -> prog) -> prog) r : yields ms (fun m => f m (dot n x y)) r -> yields ms (fun m k => dot_p (cs m) (part l m x) (part l m y) (fun a => f m a k)) r.
Proof. apply (yields_bind ms _ _ f r (HD x y)). Qed.
Definition local_outcome (i : nat) (o : outcome K) : loutcome K := match o with Fine s => LFine (local_state l i s) | Stops s => LStops (local_state l i s) | NotANumber => LNotANumber end.
Ltac parts := eapply yields_ext; [intros m k _; rewrite ?part_map, ?part_zip; reflexivity|intros m _; reflexivity|].
Lemma iteration_ok s : yields ms (fun i => iteration_p (Aop i) (Mop i) (cs i) tol (dot n b b) (local_state l i s)) (fun i => local_outcome i (iteration n A M b tol s)).
Proof.
  unfold iteration_p, iteration, local_state. cbn [l_x l_r l_d l_delta l_niter]. apply (A_bind (s_d s)). apply dot_bind. cbv beta zeta. destruct (eqb (dot n (s_d s) (apply n A (s_d s))) 0); [apply yields_ret|].
  parts. apply dot_bind. cbv beta. unfold small, below. destruct (ltb 0 tol && ltb _ _)%bool; [apply yields_ret|]. apply M_bind. apply dot_bind. destruct (eqb (s_delta s) 0); [apply yields_ret|]. parts. apply yields_ret.
Qed.
Lemma initialize_ok x0 junk : yields ms (fun i => initialize_p (Aop i) (Mop i) (cs i) (part l i b) tol (dot n b b) (part l i x0) (part l i junk)) (fun i => local_outcome i (initialize n A M b tol x0 junk)).
Proof.
  unfold initialize_p, initialize. cbv zeta. destruct (eqb (dot n b b) 0). { parts. apply yields_ret. }
  apply A_bind. parts. apply dot_bind. cbv beta. unfold small, below. destruct (ltb 0 tol && ltb _ _)%bool; [apply yields_ret|]. apply M_bind. apply dot_bind. apply yields_ret.
Qed.
Lemma loop_ok todo : forall s, yields ms (fun i => loop_p (Aop i) (Mop i) (cs i) tol (dot n b b) todo (local_state l i s)) (fun i => local_answer l i (loop n A M b tol todo s)).
Proof.
  induction todo as [|todo IH]; intros s; [apply yields_ret|]. cbn [loop_p loop].
  apply (yields_bind ms _ _ (fun m o k => match o with LFine s0 => loop_p (Aop m) (Mop m) (cs m) tol (dot n b b) todo s0 k | LStops s0 => k (LSuccess s0) | LNotANumber => k LGarbage end) _ (iteration_ok s)).
  destruct (iteration n A M b tol s) as [s'|s'|]; [apply IH|apply yields_ret|apply yields_ret].
Qed.
Lemma pcg_ok x0 junk maxiter : yields ms (fun i => pcg_p (Aop i) (Mop i) (cs i) (part l i b) tol (part l i x0) (part l i junk) maxiter) (fun i => local_answer l i (pcg n A M b tol x0 junk maxiter)).
Proof.
  unfold pcg_p, pcg. apply dot_bind.
  apply (yields_bind ms _ _ (fun m o k => match o with LFine s0 => loop_p (Aop m) (Mop m) (cs m) tol (dot n b b) maxiter s0 k | LStops s0 => k (LSuccess s0) | LNotANumber => k LGarbage end) _ (initialize_ok x0 junk)).
  destruct (initialize n A M b tol x0 junk) as [s'|s'|]; [apply loop_ok|apply yields_ret|apply yields_ret].
Qed.
End Pcg.

(** * Products of distributed and of replicated arrays *)
Section Dots.
Context {K : ofield} {R : Type}.
Add Ring KringSpmdDots : (rth K).
Local Open Scope cr_scope.
Lemma ldot_part l i (u v : nat -> K) : ldot (part l i u) (part l i v) = sum (snd (l i)) (fun j => u (fst (l i) + j)%nat * v (fst (l i) + j)%nat).
Proof.
  unfold part, ldot. rewrite combine_map, map_map. cbn [fst snd]. generalize (fst (l i)) (snd (l i)). intros a k. revert a. induction k as [|k IH]; intros a; [reflexivity|]. rewrite sum_S_l. cbn [seq map]. rewrite lsum_cons, IH. f_equal; [rewrite Nat.add_0_r; reflexivity|]. apply sum_ext. intros j _. replace (a + S j)%nat with (S a + j)%nat by lia. reflexivity.
Qed.
Lemma fold_plus (l : list nat) (sizes : nat -> nat) a : fold_right (fun j n => (sizes j + n)%nat) a l = (fold_right (fun j n => (sizes j + n)%nat) 0 l + a)%nat.
Proof. induction l as [|x l IH]; cbn; [reflexivity|]. rewrite IH. lia. Qed.
Lemma offset_S sizes i : offset sizes (S i) = (offset sizes i + sizes i)%nat.
Proof. unfold offset. rewrite seq_S, fold_right_app. cbn. rewrite fold_plus. lia. Qed.
Lemma dots_distributed sizes P (u v : nat -> K) : lsum (map (fun i => ldot (part (distributed sizes) i u) (part (distributed sizes) i v)) (seq 0 P)) = dot (offset sizes P) u v.
Proof.
  unfold dot. rewrite lsum_map_seq. induction P as [|P IH]; [reflexivity|]. rewrite offset_S, sum_split. cbn [sum]. rewrite IH, ldot_part. reflexivity.
Qed.
Lemma dot_distributed sizes P : (0 < P)%nat -> forall u v : nat -> K, yields (R := R) (seq 0 P) (fun i => dot_p (Some (world P)) (part (distributed sizes) i u) (part (distributed sizes) i v)) (fun _ => dot (offset sizes P) u v).
Proof.
  intros HP u v. rewrite <- dots_distributed. unfold dot_p. change (seq 0 P) with (c_members (world P)). apply (yields_bind _ (fun m => allreduce (world P) [ldot (part (distributed sizes) m u) (part (distributed sizes) m v)]) (fun _ => [lsum (map (fun i => ldot (part (distributed sizes) i u) (part (distributed sizes) i v)) (seq 0 P))])); [|apply yields_ret].
  rewrite <- (vsum_one (fun i => ldot (part (distributed sizes) i u) (part (distributed sizes) i v))) by (destruct P; [lia|discriminate]). apply (yields_allreduce (world P) 1); [destruct P; [lia|discriminate]|apply seq_NoDup|reflexivity].
Qed.
Lemma dot_replicated n P (own : bool) (u v : nat -> K) : yields (R := R) (seq 0 P) (fun i => dot_p (if own then Some (self i) else None) (part (replicated n) i u) (part (replicated n) i v)) (fun _ => dot n u v).
Proof.
  destruct own; cbn [dot_p].
  - apply yields_each; [apply seq_NoDup|]. intros m _.
    apply (yields_ext [m] (fun i => dot_p (Some (self m)) (part (replicated n) i u) (part (replicated n) i v)) _ (fun _ => dot n u v)); [intros i k [<-|[]]; reflexivity|reflexivity|].
    change [m] with (c_members (self m)). unfold dot_p. apply (yields_bind _ (fun i => allreduce (self m) [ldot (part (replicated n) i u) (part (replicated n) i v)]) (fun _ => [dot n u v])); [|apply yields_ret].
    apply (yields_ext _ (fun i => allreduce (self m) [ldot (part (replicated n) i u) (part (replicated n) i v)]) _ (fun _ => vsum (map (fun i => [ldot (part (replicated n) i u) (part (replicated n) i v)]) [m]))); [reflexivity| |].
    + intros i _. cbn [map vsum]. rewrite ldot_part. reflexivity.
    + apply (yields_allreduce (self m) 1); [discriminate|constructor; [intros []|constructor]|reflexivity].
  - apply (yields_ext _ (fun i k => k (ldot (part (replicated n) i u) (part (replicated n) i v))) _ (fun i => ldot (part (replicated n) i u) (part (replicated n) i v))); [reflexivity|intros i _; rewrite ldot_part; reflexivity|apply yields_ret].
Qed.
(** * The operator H^T H, the rows of H being distributed *)
Lemma nth_map_seq (f : nat -> K) m i : (i < m)%nat -> nth i (map f (seq 0 m)) 0 = f i.
Proof. intros Hi. rewrite (nth_indep _ 0 (f 0%nat)) by (rewrite map_length, seq_length; exact Hi). rewrite map_nth, seq_nth by exact Hi. reflexivity. Qed.
Lemma normal_ok P n rows (H : nat -> nat -> nat -> K) : (0 < P)%nat -> forall x, yields (R := R) (seq 0 P) (fun i => normal P n rows H i (part (replicated n) i x)) (fun i => part (replicated n) i (apply n (normal_matrix P rows H) x)).
Proof.
  intros HP x. set (z := fun r => matvec n (rows r) (transposed (H r)) (matvec (rows r) n (H r) (part (replicated n) 0 x))).
  assert (Lz : forall r, length (z r) = n) by (intros r; unfold z, matvec; rewrite map_length, seq_length; reflexivity). assert (NP : seq 0 P <> []) by (destruct P; [lia|discriminate]).
  apply (yields_ext (seq 0 P) (fun i => identity_transpose (world P) (z i)) _ (fun _ => vsum (map z (seq 0 P)))); [reflexivity| |apply (yields_identity (world P) n); [exact NP|apply seq_NoDup|intros m _; apply Lz]].
  intros i _. assert (F : Forall (fun v => length v = n) (map z (seq 0 P))) by (apply Forall_forall; intros v Hv; apply in_map_iff in Hv; destruct Hv as (r & <- & _); apply Lz).
  assert (NZ : map z (seq 0 P) <> []) by (destruct P; [lia|discriminate]). assert (L := vsum_length n _ NZ F). apply nth_ext with (d := 0) (d' := 0); [rewrite L; unfold part; rewrite map_length, seq_length; reflexivity|]. intros j Hj. rewrite L in Hj.
  rewrite (nth_vsum n) by assumption. rewrite map_map, lsum_map_seq. unfold part, replicated. cbn [fst snd]. rewrite nth_map_seq by exact Hj. unfold apply, normal_matrix.
  transitivity (sum P (fun r => sum n (fun j0 => sum (rows r) (fun k => H r k j * H r k j0) * x j0))).
  - apply sum_ext. intros r _. unfold z, matvec. rewrite nth_map_seq by exact Hj. transitivity (sum (rows r) (fun k => sum n (fun j0 => H r k j * H r k j0 * x j0))).
    + apply sum_ext. intros k Hk. rewrite nth_map_seq by exact Hk. unfold transposed. rewrite <- sum_mul_l. apply sum_ext. intros j0 Hj0. unfold part, replicated. cbn [fst snd]. rewrite nth_map_seq by exact Hj0. ring.
    + rewrite sum_swap. apply sum_ext. intros j0 _. rewrite sum_mul_r. reflexivity.
  - rewrite sum_swap. apply sum_ext. intros j0 _. rewrite sum_mul_r. reflexivity.
Qed.
Lemma local_ok P n (M : nat -> nat -> K) : forall x, yields (K := K) (R := R) (seq 0 P) (fun i k => k (matvec n n M (part (replicated n) i x))) (fun i => part (replicated n) i (apply n M x)).
Proof.
  intros x. apply (yields_ext _ (fun i k => k (matvec n n M (part (replicated n) i x))) _ (fun i => matvec n n M (part (replicated n) i x))); [reflexivity| |apply yields_ret].
  intros i _. unfold matvec, part at 2, replicated. cbn [fst snd]. apply map_ext. intros j. apply sum_ext. intros k Hk. unfold part, replicated. cbn [fst snd]. rewrite nth_map_seq by exact Hk. reflexivity.
Qed.
End Dots.
