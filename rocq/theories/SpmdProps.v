(** C45: programs run by several MPI processes. *)
From Coq Require Import String QArith Qcanon.
From Verif Require Import Base Algebra Ofield CgModel CgSpec CgProps SplitModel SpmdModel SpmdSpec SpmdProofs SpmdOps SpmdPcg.
Close Scope Qc_scope. Close Scope Q_scope. Local Open Scope nat_scope.

(** If the collective operations can take place in some order so that all processes end, they do in any order, with the same results. *)
Theorem C45_schedule : forall (K : cring) R (ps : list (prog K R)) rs s, run ps s = Some (map Ret rs) -> completes ps rs.
Proof. intros K R ps rs s. apply completes_of_run. Qed.

Section Operators.
Context (K : cring) (P : nat) (HP : 0 < P).
Lemma not_empty : c_members (world P) <> []. Proof. destruct P; [lia|discriminate]. Qed.
(** MPIDistributionIdentityOperator: the method direct gives each process the input x.  The transpose gives the adjoint for the sum of the products over the processes. *)
Theorem C45_identity : forall n (y : nat -> list K), (forall i, i < P -> length (y i) = n) ->
  exists z, completes (map (fun i => identity_transpose (world P) (y i) Ret) (seq 0 P)) (repeat z P) /\ length z = n /\ forall x, length x = n -> lsum (map (fun i => ldot x (y i)) (seq 0 P)) = ldot x z.
Proof.
  intros n y H. exists (vsum (map y (seq 0 P))). assert (F : Forall (fun v => length v = n) (map y (seq 0 P))) by (apply Forall_forall; intros v Hv; apply in_map_iff in Hv; destruct Hv as (i & <- & Hi); apply in_seq in Hi; apply H; lia).
  assert (N : map y (seq 0 P) <> []) by (destruct P; [lia|discriminate]). split; [|split; [apply vsum_length; assumption|]].
  - rewrite repeat_seq.
    apply (yields_completes P (fun i => identity_transpose (world P) (y i))). apply (yields_identity (world P) n); [apply not_empty|apply seq_NoDup|]. intros m Hm. apply in_seq in Hm. apply H. lia.
  - intros x Hx. rewrite ldot_vsum; [rewrite map_map; reflexivity|exact N|]. rewrite Hx. exact F.
Qed.
(** MPIDistributionGlobalOperator: the method direct gives consecutive parts of the input to the processes (C02), the transpose gives all of them the concatenation of the parts, and is the adjoint. *)
Theorem C45_global : forall n tl (y out : nat -> list K), (0 <= n)%Z -> Forall (fun d => (0 <= d)%Z) tl ->
  (forall i, i < P -> exists s, distribute_shape (n :: tl) (Z.of_nat i) (Z.of_nat P) = Ok s /\ Z.of_nat (length (y i)) = zprod s) -> (forall i, i < P -> Z.of_nat (length (out i)) = zprod (n :: tl)) ->
  completes (map (fun i => global_transpose (world P) (n :: tl) true (y i) (out i) Ret) (seq 0 P)) (repeat (Ok (concat (map y (seq 0 P)))) P) /\
  forall x, Z.of_nat (length x) = zprod (n :: tl) -> exists ls, rmap (fun r => global_direct (n :: tl) (Z.of_nat P) (Z.of_nat r) x) (seq 0 P) = Ok ls /\ concat ls = x /\ lsum (zip ldot ls (map y (seq 0 P))) = ldot x (concat (map y (seq 0 P))).
Proof.
  intros n tl y out Hn Ht Hy Ho. assert (Hy' : forall r, r < P -> Z.of_nat (length (y r)) = (work n (Z.of_nat P) (Z.of_nat r) * zprod tl)%Z).
  { intros r Hr. destruct (Hy r Hr) as (s & Es & Ls). unfold distribute_shape in Es. destruct (Z.eqb_spec (Z.of_nat P) 0); [lia|]. injection Es as <-. rewrite Ls. apply zprod_cons. }
  split.
  - rewrite repeat_seq. apply (yields_completes P (fun i => global_transpose (world P) (n :: tl) true (y i) (out i))). apply yields_gather; try assumption. intros r Hr. rewrite Ho by exact Hr. apply zprod_cons.
  - intros x Hx. rewrite zprod_cons in Hx. destruct (direct_ok n tl P x Hn HP Ht Hx) as (ls & E & C & L). exists ls. split; [exact E|]. split; [exact C|]. 
    replace (ldot x (concat (map y (seq 0 P)))) with (ldot (concat ls) (concat (map y (seq 0 P)))) by (rewrite C; reflexivity).
    assert (LL : map (fun v => Z.of_nat (length v)) ls = map (fun v => Z.of_nat (length v)) (map y (seq 0 P))). { rewrite L, map_map. apply map_ext_in. intros r Hr. apply in_seq in Hr. rewrite Hy' by lia. reflexivity. }
    apply (C33_mpi K ls (map y (seq 0 P))).
    + apply (f_equal (@length Z)) in LL. rewrite !map_length in LL. rewrite map_length. exact LL.
    + intros i. apply (f_equal (fun l => nth i l (Z.of_nat (length (@nil K))))) in LL. rewrite !(map_nth (fun v => Z.of_nat (length v))) in LL. lia.
Qed.
(** combine adds the numbers of the processes, combine_shape stacks their shapes (C02). *)
Theorem C45_combine : forall (x : nat -> K) (s : nat -> shape),
  completes (map (fun i => combine_p (world P) (x i) Ret) (seq 0 P)) (repeat (lsum (map x (seq 0 P))) P) /\
  completes (map (fun i => combine_shape_p (K := K) (world P) (s i) Ret) (seq 0 P)) (repeat (combine_shape (map s (seq 0 P))) P).
Proof.
  intros x s. split; rewrite repeat_seq.
  - apply (yields_completes P (fun i => combine_p (world P) (x i))). apply (yields_combine (world P)); [apply not_empty|apply seq_NoDup].
  - apply (yields_completes P (fun i => combine_shape_p (world P) (s i))). apply (yields_combine_shape (world P)); [apply not_empty|apply seq_NoDup].
Qed.
(** mprint: the first process prints one message if they are all equal, otherwise all messages with the ranks, in their order; the others print nothing. *)
Theorem C45_mprint : forall m : nat -> string, exists lines, completes (map (fun i => mprint (K := K) (world P) i (m i) Ret) (seq 0 P)) (lines :: repeat [] (P - 1)) /\
  ((forall i, i < P -> m i = m 0) -> lines = [(None, m 0)]) /\ ((exists i, i < P /\ m i <> m 0) -> lines = map (fun i => (Some i, m i)) (seq 0 P)).
Proof.
  intros m. set (lines := fun i : nat => let ms := map m (seq 0 P) in if forallb (fun m' => String.eqb m' (hd (m i) ms)) ms then [(@None nat, m i)] else map (fun im => (Some (fst im), snd im)) (combine (seq 0 (length ms)) ms)). exists (lines 0).
  assert (Hf : forallb (fun m' => String.eqb m' (hd (m 0) (map m (seq 0 P)))) (map m (seq 0 P)) = true <-> forall i, i < P -> m i = m 0).
  { replace (hd (m 0) (map m (seq 0 P))) with (m 0) by (destruct P; reflexivity). rewrite forallb_forall. split.
    - intros H i Hi. apply String.eqb_eq, H, in_map, in_seq. lia.
    - intros H x Hx. apply in_map_iff in Hx. destruct Hx as (i & <- & Hi). apply in_seq in Hi. apply String.eqb_eq, H. lia. }
  split; [|split].
  - replace (lines 0 :: repeat [] (P - 1)) with (map (fun i => if i =? 0 then lines i else []) (seq 0 P)).
    + apply (yields_completes P (fun i => mprint (world P) i (m i))). apply (yields_mprint (world P) m (fun i => i)); [apply seq_NoDup|apply not_empty|]. intros i j Hij. cbn [world c_members] in Hij. assert (i < P) by (rewrite <- (seq_length P 0); apply nth_error_Some; congruence). rewrite nth_error_seq in Hij by assumption. cbn in Hij. congruence.
    + destruct P as [|Q]; [lia|]. cbn [seq map Nat.eqb Nat.sub]. f_equal. rewrite Nat.sub_0_r. rewrite <- (seq_length Q 1) at 2. rewrite <- (map_repeat _ (seq 1 Q)). apply map_ext_in. intros i Hi. apply in_seq in Hi. destruct i; [lia|reflexivity].
  - intros H. unfold lines. cbv zeta. rewrite (proj2 Hf H). reflexivity.
  - intros (i & Hi & Ni). unfold lines. cbv zeta. destruct (forallb _ _) eqn:E; [exfalso; apply Ni, (proj1 Hf eq_refl), Hi|]. rewrite map_length, seq_length. rewrite <- (map_id (seq 0 P)) at 1. rewrite combine_map, map_map. reflexivity.
Qed.
(** filter_comm: the processes that satisfy the condition execute the body with a communicator of theirs, in the order of their ranks, the others without; there is no deadlock. *)
Theorem C45_filter : forall A (condition : nat -> bool) (body : nat -> option comm -> (result A -> prog K (result A)) -> prog K (result A)) (r : nat -> A),
  yields (filter condition (seq 0 P)) (fun i => body i (Some (Comm [1] (filter condition (seq 0 P))))) (fun i => Ok (r i)) ->
  yields (filter (fun i => negb (condition i)) (seq 0 P)) (fun i => body i None) (fun i => Ok (r i)) ->
  completes (map (fun i => filter_comm (world P) (condition i) (body i) Ret) (seq 0 P)) (map (fun i => Ok (r i)) (seq 0 P)).
Proof.
  intros A condition body r H1 H2. apply (yields_completes P (fun i => filter_comm (world P) (condition i) (body i)) (fun i => Ok (r i))). apply (yields_filter (world P) condition body r); [apply not_empty|apply seq_NoDup| |].
  - assert (group (world P) condition true = Comm [1] (filter condition (seq 0 P))) as ->; [|exact H1]. unfold group. cbn. f_equal. apply filter_ext. intros i. destruct (condition i); reflexivity.
  - assert (c_members (group (world P) condition false) = filter (fun i => negb (condition i)) (seq 0 P)) as ->; [|exact H2]. unfold group. cbn. apply filter_ext. intros i. destruct (condition i); reflexivity.
Qed.
End Operators.

(** * The conjugate gradient *)
Section Pcg.
Context (K : ofield) (P : nat) (HP : 0 < P) (A M : nat -> nat -> K) (b : nat -> K) (tol : K) (x0 junk : nat -> K) (maxiter : nat).
(** The arrays are distributed and the operators compute the parts of the results: all processes stop after the same iteration, with the parts of what one process computes from the whole arrays. *)
Theorem C45_distributed : forall sizes (Aop Mop : nat -> list K -> (list K -> prog K (lanswer K)) -> prog K (lanswer K)), let n := offset sizes P in let l := distributed sizes in
  (forall x, yields (seq 0 P) (fun i => Aop i (part l i x)) (fun i => part l i (apply n A x))) -> (forall x, yields (seq 0 P) (fun i => Mop i (part l i x)) (fun i => part l i (apply n M x))) ->
  completes (map (fun i => pcg_p (Aop i) (Mop i) (Some (world P)) (part l i b) tol (part l i x0) (part l i junk) maxiter Ret) (seq 0 P)) (map (fun i => local_answer l i (pcg n A M b tol x0 junk maxiter)) (seq 0 P)).
Proof.
  intros sizes Aop Mop n l HA HM. apply (yields_completes P (fun i => pcg_p (Aop i) (Mop i) (Some (world P)) (part l i b) tol (part l i x0) (part l i junk) maxiter)).
  apply (pcg_ok n (seq 0 P) l A M Aop Mop (fun _ => Some (world P)) HA HM). intros x y. apply dot_distributed, HP.
Qed.
(** The arrays are replicated (the communicator of the input is MPI.COMM_SELF, or None): all processes get the result that one process computes. *)
Theorem C45_replicated : forall n (own : bool) (Aop Mop : nat -> list K -> (list K -> prog K (lanswer K)) -> prog K (lanswer K)), let l := replicated n in
  (forall x, yields (seq 0 P) (fun i => Aop i (part l i x)) (fun i => part l i (apply n A x))) -> (forall x, yields (seq 0 P) (fun i => Mop i (part l i x)) (fun i => part l i (apply n M x))) ->
  completes (map (fun i => pcg_p (Aop i) (Mop i) (if own then Some (self i) else None) (part l i b) tol (part l i x0) (part l i junk) maxiter Ret) (seq 0 P)) (repeat (local_answer l 0 (pcg n A M b tol x0 junk maxiter)) P).
Proof.
  intros n own Aop Mop l HA HM. rewrite repeat_seq. apply (yields_completes P (fun i => pcg_p (Aop i) (Mop i) (if own then Some (self i) else None) (part l i b) tol (part l i x0) (part l i junk) maxiter)).
  apply (yields_ext _ (fun i => pcg_p (Aop i) (Mop i) (if own then Some (self i) else None) (part l i b) tol (part l i x0) (part l i junk) maxiter) _ (fun i => local_answer l i (pcg n A M b tol x0 junk maxiter))); [reflexivity|reflexivity|].
  apply (pcg_ok n (seq 0 P) l A M Aop Mop (fun i => if own then Some (self i) else None) HA HM). intros x y. apply dot_replicated.
Qed.
(** In particular for D.T * H.T * H * D, where D is the MPIDistributionIdentityOperator and each process has rows of the matrix H: the matrix is that of the sum over all rows. *)
Theorem C45_normal : forall n rows (H : nat -> nat -> nat -> K) (own : bool), let l := replicated n in
  completes (map (fun i => pcg_p (normal P n rows H i) (fun x k => k (matvec n n M x)) (if own then Some (self i) else None) (part l i b) tol (part l i x0) (part l i junk) maxiter Ret) (seq 0 P))
    (repeat (local_answer l 0 (pcg n (normal_matrix P rows H) M b tol x0 junk maxiter)) P).
Proof.
  intros n rows H own l. rewrite repeat_seq.
  apply (yields_completes P (fun i => pcg_p (normal P n rows H i) (fun x k => k (matvec n n M x)) (if own then Some (self i) else None) (part l i b) tol (part l i x0) (part l i junk) maxiter)).
  apply (yields_ext _ (fun i => pcg_p (normal P n rows H i) (fun x k => k (matvec n n M x)) (if own then Some (self i) else None) (part l i b) tol (part l i x0) (part l i junk) maxiter) _ (fun i => local_answer l i (pcg n (normal_matrix P rows H) M b tol x0 junk maxiter))); [reflexivity|reflexivity|].
  apply (pcg_ok n (seq 0 P) l (normal_matrix P rows H) M (normal P n rows H) (fun _ x k => k (matvec n n M x)) (fun i => if own then Some (self i) else None) (normal_ok P n rows H HP) (local_ok P n M)). intros x y. apply dot_replicated.
Qed.
End Pcg.

(** * Examples *)
Local Notation Z_ := Zring.
Example identity_run : run (R := list Z_) (map (fun i => identity_transpose (K := Z_) (world 3) [Z.of_nat i; 5%Z] Ret) (seq 0 3)) [world 3] = Some (repeat (Ret [3; 15]%Z) 3).
Proof. reflexivity. Qed.
Example identity_one : map (fun i => identity_transpose (K := Z_) (R := list Z_) (world 1) [Z.of_nat i; 5%Z] Ret) (seq 0 1) = [Ret [0; 5]%Z]. Proof. reflexivity. Qed.
(** Five rows of two elements and three processes *)
Definition y3 (i : nat) : list Z_ := map (fun j => (10 * Z.of_nat i + Z.of_nat j)%Z) (seq 0 (match i with 2 => 2 | _ => 4 end)).
Example y3_ok : forall i, i < 3 -> exists s, distribute_shape [5; 2]%Z (Z.of_nat i) 3 = Ok s /\ Z.of_nat (length (y3 i)) = zprod s.
Proof. intros [|[|[|i]]] H; try lia; eexists; split; reflexivity. Qed.
Example global_run : run (R := result (list Z_)) (map (fun i => global_transpose (K := Z_) (world 3) [5; 2]%Z true (y3 i) (repeat 0%Z 10) Ret) (seq 0 3)) [world 3] = Some (repeat (Ret (Ok [0; 1; 2; 3; 10; 11; 12; 13; 20; 21]%Z)) 3).
Proof. reflexivity. Qed.
Example combine_run : run (R := Z_) (map (fun i => combine_p (K := Z_) (world 4) (Z.of_nat i) Ret) (seq 0 4)) [world 4] = Some (repeat (Ret 6%Z) 4). Proof. reflexivity. Qed.
Example combine_shape_run : run (R := result shape) (map (fun i => combine_shape_p (K := Z_) (world 2) [Z.of_nat i; 7]%Z Ret) (seq 0 2)) [world 2] = Some (repeat (Ret (Ok [1; 7]%Z)) 2). Proof. reflexivity. Qed.
Example mprint_run : run (map (fun i => mprint (K := Z_) (world 3) i (if i =? 1 then "b"%string else "a"%string) Ret) (seq 0 3)) [world 3] = Some (map Ret [[(Some 0, "a"); (Some 1, "b"); (Some 2, "a")]%string; []; []]). Proof. reflexivity. Qed.
Example mprint_same : run (map (fun i => mprint (K := Z_) (world 3) i "a"%string Ret) (seq 0 3)) [world 3] = Some (map Ret [[(None, "a"%string)]; []; []]). Proof. reflexivity. Qed.
(** The processes 0 and 2 add their numbers, the others do nothing; the collective operations of the two groups are not ordered. *)
Definition body3 (i : nat) (c : option comm) (k : result Z_ -> prog Z_ (result Z_)) : prog Z_ (result Z_) := match c with Some c => combine_p (K := Z_) c (Z.of_nat (i + 1)) (fun s => k (Ok s)) | None => k (Ok 0%Z) end.
Definition group3 (b : bool) := group (world 4) Nat.even b.
Example filter_run : run (map (fun i => filter_comm (world 4) (Nat.even i) (body3 i) Ret) (seq 0 4)) [world 4; group3 true; group3 true; group3 false] = Some (map Ret (map Ok [4; 0; 4; 0]%Z)) /\
  run (map (fun i => filter_comm (world 4) (Nat.even i) (body3 i) Ret) (seq 0 4)) [world 4; group3 false; group3 true; group3 true] = Some (map Ret (map Ok [4; 0; 4; 0]%Z)).
Proof. split; reflexivity. Qed.
Example body3_ok : yields (filter Nat.even (seq 0 4)) (fun i => body3 i (Some (Comm [1] (filter Nat.even (seq 0 4))))) (fun _ => Ok 4%Z) /\ yields (filter (fun i => negb (Nat.even i)) (seq 0 4)) (fun i => body3 i None) (fun _ => Ok 0%Z).
Proof.
  split; [|apply (yields_ret _ (fun _ : nat => Ok 0%Z))].
  apply (yields_bind (K := Z_) (R := result Z_) (c_members (Comm [1] [0; 2])) (fun i => combine_p (Comm [1] [0; 2]) (Z.of_nat (i + 1) : Z_)) (fun _ => 4%Z) (fun _ s k => k (Ok s)) (fun _ => Ok 4%Z)); [|apply (yields_ret _ (fun _ : nat => Ok 4%Z))].
  apply (yields_combine (Comm [1] [0; 2]) (fun i => Z.of_nat (i + 1) : Z_)); [discriminate|]. repeat constructor; cbn; intuition discriminate.
Qed.
(** Two processes with one row each of the system of C33, and with the half of the arrays *)
Definition rows2 (i : nat) (x : list Qf) (k : list Qf -> prog Qf (lanswer Qf)) : prog Qf (lanswer Qf) :=
  global_transpose (world 2) [2]%Z true x [r0; r0] (fun r => match r with Ok v => k [ldot (map (A2 i) (seq 0 2)) v] | Raise _ => Stuck end).
Definition answers (cfg : option (list (prog Qf (lanswer Qf)))) : option (list (option (list Q * nat))) :=
  match cfg with Some l => Some (map (fun p : prog Qf (lanswer Qf) => match p with Ret (LSuccess s) => Some (map this (l_x s), l_niter s) | _ => None end) l) | None => None end.
Definition pcg2 := map (fun i => pcg_p (rows2 i) (fun x k => k (map (rmul (M2 i i)) x)) (Some (world 2)) [b2 i] (q 1 1000) [zeros i] [zeros i] 5 Ret) (seq 0 2).
Example pcg_distributed_run : answers (run pcg2 (repeat (world 2) 11)) = Some [Some ([3 # 2]%Q, 2); Some ([0 # 1]%Q, 2)]. Proof. vm_compute. reflexivity. Qed.
(** A schedule in which the first of the communicators that can proceeds *)
Fixpoint drive {R} (fuel : nat) (cs : list comm) (cfg : list (prog Qf R)) : list (prog Qf R) :=
  match fuel with
  | O => cfg
  | S fuel => match find (fun c => match fire c cfg with Some _ => true | None => false end) cs with Some c => match fire c cfg with Some cfg => drive fuel cs cfg | None => cfg end | None => cfg end
  end.
Definition normal2 := map (fun i => pcg_p (normal 2 2 (fun _ => 1) (fun r _ j => A2 r j) i) (fun x k => k (matvec 2 2 M2 x)) (Some (self i)) [b2 0; b2 1] (q 1 1000) [zeros 0; zeros 1] [zeros 0; zeros 1] 5 Ret) (seq 0 2).
Example normal_run : answers (Some (drive 100 [self 0; self 1; world 2] normal2)) = Some [Some ([1; -1 # 2]%Q, 2); Some ([1; -1 # 2]%Q, 2)] /\ answers (Some (drive 100 [world 2; self 1; self 0] normal2)) = Some [Some ([1; -1 # 2]%Q, 2); Some ([1; -1 # 2]%Q, 2)].
Proof. split; vm_compute; reflexivity. Qed.
Lemma product2 (K : ofield) (a b c d : K) : ldot [a; b] [c; d] = radd (radd r0 (rmul a c)) (rmul b d).
Proof. rewrite !ldot_cons, ldot_nil_r, radd_0_r, radd_0_l. reflexivity. Qed.
Example rows2_ok : forall x, yields (seq 0 2) (fun i => rows2 i (part (distributed (fun _ => 1)) i x)) (fun i => part (distributed (fun _ => 1)) i (apply 2 A2 x)).
Proof.
  intros x. unfold rows2.
  apply (yields_ext (K := Qf) (R := lanswer Qf) (seq 0 2) (fun i (k : list Qf -> prog Qf (lanswer Qf)) => global_transpose (world 2) [2]%Z true (part (distributed (fun _ => 1)) i x) [r0; r0] (fun r => match r with Ok v => k [ldot (map (A2 i) (seq 0 2)) v] | Raise _ => Stuck end)) _ (fun i => [ldot (map (A2 i) (seq 0 2)) [x 0; x 1]])); [reflexivity| |].
  - intros m Hm. apply in_seq in Hm. destruct m as [|[|m]]; [| |lia]; cbn [seq map]; rewrite product2; reflexivity.
  - apply (yields_bind (seq 0 2) (fun i => global_transpose (world 2) [2]%Z true (part (distributed (fun _ => 1)) i x) [r0; r0]) (fun _ => Ok [x 0; x 1]) (fun i r k => match r with Ok v => k [ldot (map (A2 i) (seq 0 2)) v] | Raise _ => Stuck end)).
    + apply (yields_gather 2 2%Z [] (fun i => part (distributed (fun _ => 1)) i x) (fun _ => [r0; r0])); [lia|lia|constructor| |]; intros r Hr; destruct r as [|[|r]]; try lia; reflexivity.
    + apply (yields_ret (seq 0 2) (fun i => [ldot (map (A2 i) (seq 0 2)) [x 0; x 1]])).
Qed.

(** * What does not hold *)
(** filter_comm has no try/finally: an exception of the body in one process skips the collective call of Free, in which the other processes of the group wait for ever.  (The documentation
    presents it as a context manager, which releases the communicator in any case.) *)
Theorem C45_filter_exception_refuted : ~ forall (K : cring) (A : Type) (P : nat) (condition : nat -> bool) (body : nat -> result A) (s : list comm) cfg,
  run (K := K) (map (fun i => filter_comm (world P) (condition i) (fun _ k => k (body i)) Ret) (seq 0 P)) s = Some cfg -> ~ deadlock cfg.
Proof.
  intros H. refine (H Zring nat 2 (fun _ => true) (fun i => if i =? 0 then Raise ValueError else Ok 7) [world 2] _ eq_refl _). apply deadlock_pair. left. reflexivity.
Qed.
(** MPIDistributionGlobalOperator.transpose views its input as bytes: an input that is not contiguous in one process raises a ValueError there, and the other processes wait for ever. *)
Theorem C45_contiguous_refuted : ~ forall (K : cring) P n tl (contiguous : nat -> bool) (y out : nat -> list K), 0 < P -> (0 <= n)%Z -> Forall (fun d => (0 <= d)%Z) tl ->
  (forall i, i < P -> exists s, distribute_shape (n :: tl) (Z.of_nat i) (Z.of_nat P) = Ok s /\ Z.of_nat (length (y i)) = zprod s) -> (forall i, i < P -> Z.of_nat (length (out i)) = zprod (n :: tl)) ->
  ~ deadlock (map (fun i => global_transpose (world P) (n :: tl) (contiguous i) (y i) (out i) Ret) (seq 0 P)).
Proof.
  intros H. refine (H Zring 2 2%Z [2%Z] (fun i => negb (i =? 0)) (fun _ => [1; 2]%Z) (fun _ => [0; 0; 0; 0]%Z) _ _ _ _ _ _); [lia|lia|constructor; [lia|constructor]| | |].
  - intros [|[|i]] Hi; try lia; eexists; split; reflexivity.
  - intros i Hi. reflexivity.
  - apply deadlock_pair. left. reflexivity.
Qed.

Print Assumptions C45_schedule. Print Assumptions C45_identity. Print Assumptions C45_global. Print Assumptions C45_combine. Print Assumptions C45_mprint. Print Assumptions C45_filter. Print Assumptions C45_distributed. Print Assumptions C45_replicated. Print Assumptions C45_normal. Print Assumptions C45_filter_exception_refuted. Print Assumptions C45_contiguous_refuted.
