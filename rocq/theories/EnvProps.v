(** C66: settings and numbers of threads in the environment. *)
From Coq Require Import Ascii String.
From Verif Require Import Base EnvModel EnvSpec EnvProofs.
Local Open Scope Z_scope.

(** A setting that is not in the environment, or is blank, has its default value. *)
Theorem C66_unset : forall (d : Z) (b : bool) value, (forall t, value = Some t -> Forall space t) ->
  getenv_int d value = (d, false) /\ getenv_bool b value = (b, false).
Proof. intros d b value H. split; now apply getenv_cases. Qed.
(** An integer, with spaces around it, is read as such; for a boolean setting it means whether it is not zero. *)
Theorem C66_integer : forall d b l t r z, Forall space l -> Forall space r -> integer t z ->
  getenv_int d (Some (l ++ t ++ r)) = (z, false) /\
  exists v, getenv_bool b (Some (l ++ t ++ r)) = (v, false) /\ (v = true <-> z <> 0).
Proof.
  intros d b l t r z L R H. assert (T := integer_trimmed H). apply parse_int_iff in H.
  assert (P : python_int t = Some z) by (unfold python_int; now rewrite strip_id).
  split; [unfold getenv_int; rewrite getenv_value by assumption; now rewrite P|].
  exists (negb (z =? 0)). split; [unfold getenv_bool; rewrite getenv_value by assumption; now rewrite P|].
  rewrite Bool.negb_true_iff. apply Z.eqb_neq.
Qed.
Example C66_integer_ex : integer (lit "-1_024") (-1024) /\ getenv_int 32 (Some (lit " -1_024 ")) = (-1024, false) /\
  getenv_bool false (Some (lit "1")) = (true, false) /\ getenv_bool true (Some (lit "0")) = (false, false) /\ getenv_int 32 (Some (lit "1__0")) = (32, true).
Proof. split; [|repeat split]. apply parse_int_iff. reflexivity. Qed.
(** Anything else gives the default value, with a warning. *)
Theorem C66_invalid : forall d b l t r, Forall space l -> Forall space r -> trimmed t -> (forall z, ~ integer t z) ->
  getenv_int d (Some (l ++ t ++ r)) = (d, true) /\ getenv_bool b (Some (l ++ t ++ r)) = (b, true).
Proof.
  intros d b l t r L R T N. assert (P : python_int t = None).
  { unfold python_int. rewrite strip_id by assumption. destruct (parse_int t) as [z|] eqn:E; [|reflexivity]. apply parse_int_iff in E. now apply N in E. }
  split; [unfold getenv_int|unfold getenv_bool]; rewrite getenv_value by assumption; now rewrite P.
Qed.
(** There is no other case. *)
Theorem C66_cases : forall t, Forall space t \/ exists l t' r, Forall space l /\ Forall space r /\ trimmed t' /\ t = l ++ t' ++ r.
Proof. exact text_split. Qed.
Example C66_invalid_ex : trimmed (lit "1e3") /\ (forall z, ~ integer (lit "1e3") z) /\ getenv_int 32 (Some (lit "1e3")) = (32, true).
Proof.
  split; [now apply trimmed_by|]. split; [|reflexivity]. intros z H. apply parse_int_iff in H. discriminate H.
Qed.
(** Finding: PYOPERATORS_VERBOSE=True or PYOPERATORS_NO_MPI=yes do not set these boolean settings: only integers are read, and other texts
    leave the default value (with a warning). *)
Theorem C66_true_refuted : getenv_bool false (Some (lit "True")) = (false, true) /\ getenv_bool false (Some (lit "yes")) = (false, true).
Proof. split; reflexivity. Qed.
(** Finding: PYOPERATORS_MEMORY_ALIGNMENT=0 is accepted without a warning, although addresses are then reduced modulo 0 (memory.py 112 and
    core.py 2518), which raises ZeroDivisionError. *)
Theorem C66_alignment_refuted : getenv_int 32 (Some (lit "0")) = (0, false).
Proof. reflexivity. Qed.

Section Threads.
Context (cpus : Z).
(** After a block that uses a pool and does not raise, OMP_NUM_THREADS and the number of threads of MKL are what they were before, whatever
    the block did to them. *)
Theorem C66_restored : forall n p s s', exec cpus (Threads n p) s = (s', None) -> omp s' = omp s /\ mkl s' = mkl s.
Proof. exact (@restored cpus). Qed.
(** A program that does not raise and catches no exception leaves no pool open. *)
Theorem C66_closed : forall p s s', catches_nothing p -> coherent s -> exec cpus p s = (s', None) -> live s' = live s.
Proof. exact (@pools_closed cpus). Qed.
(** Inside the block, even in nested ones and after exceptions, there is one thread for OpenMP and for MKL, and the nested pools whose size is
    not specified have one thread. *)
Theorem C66_inside : forall n p s, respectful p -> exists l, log (fst (exec cpus (Threads n p) s)) = log s ++ l /\
  (forall o k, In (Saw o k) l -> o = Some (lit "1") /\ (forall m, k = Some m -> m = 1)) /\
  (default_sizes p -> forall size, In (Pool size) (tl l) -> size = 1).
Proof.
  intros n p s R. destruct (starts_one cpus n s R) as (l & E & F & G). exists l. split; [assumption|]. split.
  - intros o k I. rewrite Forall_forall in F. exact (F _ I).
  - intros D size I. specialize (G D). rewrite Forall_forall in G. exact (G _ I).
Qed.
(** The size of a pool is the argument, or the integer in OMP_NUM_THREADS, or the number of processors; it must be positive. *)
Theorem C66_size : forall n p s k,
  n = Some k \/ (n = None /\ omp s = None /\ k = cpus) \/
  (n = None /\ exists l t r, Forall space l /\ Forall space r /\ integer t k /\ omp s = Some (l ++ t ++ r)) ->
  (1 <= k -> exists rest, log (fst (exec cpus (Threads n p) s)) = log s ++ Pool k :: rest) /\
  (k < 1 -> snd (exec cpus (Threads n p) s) = Some ValueError).
Proof.
  intros n p s k H. apply pool_size. destruct H as [->|[(-> & O & ->)|(-> & l & t & r & L & R & I & O)]]; [reflexivity| |]; unfold omp_num_threads; rewrite O; [reflexivity|].
  rewrite (python_int_spaces L R (integer_trimmed I)). apply parse_int_iff in I. now rewrite I.
Qed.
End Threads.
Example C66_inside_ex : respectful nested /\ catches_nothing nested /\ coherent (start (Some (lit "2"))) /\
  exec 8 nested (start (Some (lit "2"))) =
  ({| omp := Some (lit "2"); mkl := Some 4; live := []; opened := 2;
      log := [Pool 3; Saw (Some (lit "1")) (Some 1); Pool 1; Saw (Some (lit "1")) (Some 1)] |}, None).
Proof. split; [now repeat split|]. split; [now repeat split|]. split; [intros i []|reflexivity]. Qed.

(** Finding: the context manager pool_threading restores nothing if its block raises: OMP_NUM_THREADS remains equal to 1, MKL remains limited
    to one thread and the pool is not closed. *)
Theorem C66_exception_refuted : exists p s, omp s = Some (lit "8") /\ mkl s = Some 4 /\ live s = [] /\
  omp (fst (exec 8 (Try (Threads None p)) s)) = Some (lit "1") /\ mkl (fst (exec 8 (Try (Threads None p)) s)) = Some 1 /\
  live (fst (exec 8 (Try (Threads None p)) s)) <> [].
Proof. exists Fail, (start (Some (lit "8"))). now repeat split. Qed.
(** Finding: pool_threading(0) raises ValueError after it has changed the numbers of threads, which are not restored. *)
Theorem C66_zero_refuted : exists s, omp s = None /\ forall p, exec 8 (Threads (Some 0) p) s = (set_omp (Some (lit "1")) (set_mkl 1 s), Some ValueError).
Proof. exists (start None). split; [reflexivity|]. intros p. reflexivity. Qed.
(** Finding: if OMP_NUM_THREADS is not set beforehand and the block removes it from the environment, KeyError is raised at the end of the block. *)
Theorem C66_removed_refuted : exists p s, omp s = None /\ snd (exec 8 p s) = None /\ snd (exec 8 (Threads None p) s) = Some KeyError.
Proof. exists (SetOmp None), (start None). now repeat split. Qed.
(** Finding: the values of OMP_NUM_THREADS that OpenMP allows for nested parallelism, such as 4,2, are not understood: pool_threading() raises
    ValueError, and so does importing the package if PyFFTW is available, since fft.py calls omp_num_threads at line 23. *)
Theorem C66_list_refuted : forall p s, omp s = Some (lit "4,2") -> omp_num_threads 8 s = Raise ValueError /\ exec 8 (Threads None p) s = (s, Some ValueError).
Proof. intros p s H. assert (E : omp_num_threads 8 s = Raise ValueError) by (unfold omp_num_threads; rewrite H; reflexivity). split; [exact E|]. cbn [exec]. now rewrite E. Qed.

Print Assumptions C66_unset.
Print Assumptions C66_integer.
Print Assumptions C66_invalid.
Print Assumptions C66_cases.
Print Assumptions C66_true_refuted.
Print Assumptions C66_alignment_refuted.
Print Assumptions C66_restored.
Print Assumptions C66_closed.
Print Assumptions C66_inside.
Print Assumptions C66_size.
Print Assumptions C66_exception_refuted.
Print Assumptions C66_zero_refuted.
Print Assumptions C66_removed_refuted.
Print Assumptions C66_list_refuted.
