(** C64: stop conditions stop the iterations when they say. *)
From Verif Require Import Base IterModel StopModel StopSpec StopProofs.

Section Conditions.
Context {V E M : Type} (leb : E -> E -> bool) (error : nat -> list (list V) -> E).
(** A condition raises StopIteration if and only if it or one of its operands is met, with the message of one that is met. *)
Theorem C64_met : forall (c : condition V E M) n v,
  ((exists m, check leb error c n v = Some m) <-> exists m, met leb error n v c m) /\
  forall m, check leb error c n v = Some m -> met leb error n v c m.
Proof. intros c n v. split; [apply check_stops|apply check_some]. Qed.
(** The condition c | d is met when c or d is; the message is the one of c if c is met. *)
Theorem C64_either : forall (c d : condition V E M) n v,
  ((exists m, check leb error (either c d) n v = Some m) <-> (exists m, met leb error n v c m) \/ exists m, met leb error n v d m) /\
  (forall m, check leb error (either c d) n v = Some m -> (exists m', met leb error n v c m') -> met leb error n v c m).
Proof.
  intros c d n v. rewrite <- !check_stops, check_either. split.
  - destruct (check leb error c n v) as [m|]; split; [eauto|eauto|eauto|]. intros [(m & H)|H]; [discriminate H|exact H].
  - intros m H K. apply check_stops in K. destruct K as (m' & K). rewrite K in H. injection H as <-. now apply check_some.
Qed.
End Conditions.
Example C64_either_ex : let c := either (MaxError 5 10) (either NoStop (MaxIteration 3 20)) in
  check Nat.leb latest c 3 [[7]] = Some 20 /\ check Nat.leb latest c 3 [[5]] = Some 10 /\ check Nat.leb latest c 2 [[7]] = None.
Proof. repeat split. Qed.

Section Runs.
Context {V E M : Type} (leb : E -> E -> bool) (error : nat -> list (list V) -> E).
(** An algorithm does not pass the number of iterations at which its normal or its abnormal condition is met, whatever the sequence of
    commands and their exceptions. *)
Theorem C64_bound : forall (a0 : algo V) (normal abnormal : condition V E M) k h t ini s cs,
  (forall v, exists m, met leb error k v normal m) \/ (forall v, exists m, met leb error k v abnormal m) -> order a0 - 1 <= k ->
  let a := set_buffer_handling (with_conditions leb error a0 normal abnormal) in
  new_algo a h t ini = Ok s -> niter (fst (execs a cs s)) <= k.
Proof. intros a0 normal abnormal k h t ini s cs H O a. now apply never_passed. Qed.
(** An algorithm whose iterations do not stop by themselves, without interruption, runs until one of its conditions is met: it ends
    normally if it is the normal one, and otherwise with AbnormalStopIteration.  The normal condition has the priority. *)
Theorem C64_exact : forall (a0 : algo V) (normal abnormal : condition V E M) k h t ini s,
  (forall n v, snd (iteration a0 n v) = Fine) -> (forall j, interrupt a0 j = false) ->
  let a := set_buffer_handling (with_conditions leb error a0 normal abnormal) in
  new_algo a h t ini = Ok s -> order a0 - 1 <= k < int_max a0 ->
  (forall n v m, n < k -> ~ met leb error n v normal m /\ ~ met leb error n v abnormal m) ->
  ((forall v, exists m, met leb error k v normal m) -> exists s', run a None s = (s', None) /\ niter s' = k) /\
  ((forall v m, ~ met leb error k v normal m) -> (forall v, exists m, met leb error k v abnormal m) ->
     exists s', run a None s = (s', Some AbnormalStopIteration) /\ niter s' = k).
Proof. intros a0 normal abnormal k h t ini s Q NI a N O B. now apply (stops_at Q NI N O). Qed.
(** In particular, MaxIterationStopCondition(k) gives exactly k - order + 1 iterations. *)
Theorem C64_max_iterations : forall (a0 : algo V) k (message : M) h t ini s,
  (forall n v, snd (iteration a0 n v) = Fine) -> (forall j, interrupt a0 j = false) ->
  let a := set_buffer_handling (with_conditions leb error a0 (MaxIteration (Z.of_nat k) message) NoStop) in
  let b := set_buffer_handling (with_conditions leb error a0 NoStop (MaxIteration (Z.of_nat k) message)) in
  order a0 - 1 <= k < int_max a0 ->
  (new_algo a h t ini = Ok s -> exists s', run a None s = (s', None) /\ niter s' = k) /\
  (new_algo b h t ini = Ok s -> exists s', run b None s = (s', Some AbnormalStopIteration) /\ niter s' = k).
Proof.
  intros a0 k message h t ini s Q NI a b O. split; intros N; apply (stops_at Q NI N O).
  - intros n v m L. split; [rewrite met_max; intros [H _]; apply Nat2Z.inj in H; subst n; now apply Nat.lt_irrefl in L|apply met_no].
  - intros v. exists message. now constructor.
  - intros n v m L. split; [apply met_no|rewrite met_max; intros [H _]; apply Nat2Z.inj in H; subst n; now apply Nat.lt_irrefl in L].
  - intros v m. apply met_no.
  - intros v. exists message. now constructor.
Qed.
(** Finding: MaxIterationStopCondition compares with ==, not >=, and the count starts at the order of the recursion minus one: a maximum
    less than this, or negative, never stops the iterations. *)
Theorem C64_below_refuted : forall (a0 : algo V) (k : Z) (message : M) n h t ini s,
  (forall n v, snd (iteration a0 n v) = Fine) -> (forall j, interrupt a0 j = false) ->
  let a := set_buffer_handling (with_conditions leb error a0 (MaxIteration k message) NoStop) in
  new_algo a h t ini = Ok s -> (k < Z.of_nat (order a0 - 1))%Z -> 1 <= n ->
  exists s', run a (Some n) s = (s', None) /\ niter s' = order a0 - 1 + n.
Proof.
  intros a0 k message n h t ini s Q NI a N L. apply (never_stops Q NI 0 N). intros n' v m L'. split; [|apply met_no].
  rewrite met_max. intros [H _]. rewrite <- H in L. apply Nat2Z.inj_lt in L. now apply Nat.lt_nge in L.
Qed.
End Runs.
Example C64_exact_ex : ran (MaxIteration 4 0) NoStop [Run None; Cont; Next 1] = Some (4, [[12; 5]], [None; None; Some StopIteration]) /\
  ran NoStop (MaxIteration 4 0) [Run None] = Some (4, [[12; 5]], [Some AbnormalStopIteration]) /\
  ran (MaxIteration 4 0) (MaxIteration 4 0) [Run None] = Some (4, [[12; 5]], [None]).
Proof. repeat split. Qed.
Example C64_below_refuted_ex : ran (MaxIteration 0 0) NoStop [Run (Some 6)] = Some (7, [[169; 70]], [None]).
Proof. reflexivity. Qed.

(** Finding: str(c | d) raises TypeError: OrStopCondition.__str__ has no return statement. *)
Theorem C64_text_refuted : forall (V E M T : Type) (of_message : M -> T) (of_error : E -> T) (of_number : Z -> T) no_stop (c d : condition V E M),
  c <> NoStop -> text T of_message of_error of_number no_stop (either c d) = Raise TypeError.
Proof. intros V E M T f g h x c d N. destruct c; try reflexivity. now destruct N. Qed.

Print Assumptions C64_met.
Print Assumptions C64_either.
Print Assumptions C64_bound.
Print Assumptions C64_exact.
Print Assumptions C64_max_iterations.
Print Assumptions C64_below_refuted.
Print Assumptions C64_text_refuted.
