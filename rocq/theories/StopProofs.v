(** Proofs about stop conditions *)
From Verif Require Import Base IterModel StopModel StopSpec.
From Coq Require Import Lia.
Set Implicit Arguments. Unset Strict Implicit.

Section Conditions.
Context {V E M : Type} (leb : E -> E -> bool) (error : nat -> list (list V) -> E).
Implicit Types (c d : condition V E M) (n : nat) (v : list (list V)).
Notation check := (check leb error).
Notation met := (met leb error).

(** Induction over the operands *)
Definition condition_rect' (P : condition V E M -> Prop) (H1 : forall f m, P (Condition f m)) (H2 : forall e m, P (MaxError e m))
  (H3 : forall k m, P (MaxIteration k m)) (H4 : forall l, Forall P l -> P (Or l)) (H5 : P NoStop) : forall c, P c :=
  fix go c : P c := match c return P c with
  | Condition f m => H1 f m | MaxError e m => H2 e m | MaxIteration k m => H3 k m | NoStop => H5
  | Or l => H4 l ((fix all l := match l return Forall P l with [] => Forall_nil P | c :: l => Forall_cons c (go c) (all l) end) l)
  end.
Lemma check_or (l : list (condition V E M)) n v :
  check (Or l) n v = match l with [] => None | c :: l => match check c n v with Some m => Some m | None => check (Or l) n v end end.
Proof. destruct l; reflexivity. Qed.

Lemma check_some c n v : forall m, check c n v = Some m -> met n v c m.
Proof.
  induction c as [f m|e m|k m|l IH|] using condition_rect'; intros m'.
  - cbn [StopModel.check]. destruct (f n v) eqn:H; [|discriminate]. intros K. injection K as <-. now constructor.
  - cbn [StopModel.check]. destruct (leb (error n v) e) eqn:H; [|discriminate]. intros K. injection K as <-. now constructor.
  - cbn [StopModel.check]. destruct (Z.eqb_spec (Z.of_nat n) k) as [H|]; [|discriminate]. intros K. injection K as <-. now constructor.
  - induction IH as [|c l Hc _ IHl]; rewrite check_or; [discriminate|]. destruct (check c n v) as [m|] eqn:H.
    + intros K. injection K as <-. apply met_or with (c := c); [now left|]. now apply Hc.
    + intros K. specialize (IHl K). inversion IHl as [| | |? d ? I J]; subst. apply met_or with (c := d); [now right|exact J].
  - discriminate.
Qed.
Lemma check_none c n v : check c n v = None -> forall m, ~ met n v c m.
Proof.
  induction c as [f m|e m|k m|l IH|] using condition_rect'; intros N m' H.
  - cbn [StopModel.check] in N. inversion H as [? ? Q| | |]; subst. now rewrite Q in N.
  - cbn [StopModel.check] in N. inversion H as [|? ? Q| |]; subst. now rewrite Q in N.
  - cbn [StopModel.check] in N. inversion H as [| |? ? Q|]; subst. now rewrite Z.eqb_refl in N.
  - inversion H as [| | |? d ? I J]; subst. clear H. induction IH as [|c l Hc _ IHl]; [destruct I|].
    rewrite check_or in N. destruct (check c n v) eqn:Q; [discriminate|]. destruct I as [->|I]; [exact (Hc eq_refl m' J)|]. now apply IHl.
  - inversion H.
Qed.
Lemma check_stops c n v : (exists m, check c n v = Some m) <-> exists m, met n v c m.
Proof.
  split; intros (m & H); [exists m; now apply check_some|]. destruct (check c n v) as [m'|] eqn:Q; [now exists m'|].
  now apply (check_none Q) in H.
Qed.
Lemma check_either c d n v : check (either c d) n v = match check c n v with Some m => Some m | None => check d n v end.
Proof.
  assert (G : forall c, check (Or [c; d]) n v = match check c n v with Some m => Some m | None => check d n v end).
  { intros c'. rewrite !check_or. destruct (check c' n v); [reflexivity|]. destruct (check d n v); reflexivity. }
  destruct c; cbn [either]; first [apply G|reflexivity].
Qed.
End Conditions.

(** ** The number of iterations *)
Section Count.
Context {V : Type}.
Implicit Types (a : algo V) (s : state V).

Lemma iterate_niter a s : niter (fst (iterate a s)) = niter s.
Proof.
  unfold iterate. destruct (iteration a (niter s) (values s)) as [vs o]. destruct (inplace_recursion a); [reflexivity|].
  destruct (allocate_new_state a); reflexivity.
Qed.
Lemma update_niter a s : niter (update_variables a s) = niter s.
Proof. unfold update_variables. destruct (inplace_recursion a); reflexivity. Qed.
Lemma turn_niter a s : niter (fst (turn a s)) = match check_stop_conditions a s with Some _ => niter s | None => S (niter s) end.
Proof.
  unfold turn. destruct (check_stop_conditions a s) as [e|]; [reflexivity|].
  set (s1 := {| heap := heap s; top := top s; news := news s; hists := hists s; init := init s; niter := S (niter s); ticks := ticks s |}).
  assert (H := iterate_niter a s1). destruct (iterate a s1) as [s2 o]. cbn [fst] in H.
  destruct o; cbn [fst]; rewrite ?update_niter; exact H.
Qed.

(** A bound at which the conditions stop is never passed. *)
Section Bound.
Context (a : algo V) (k : nat).
Context (St : forall s, niter s = k -> check_stop_conditions a s <> None).
Context (O : order a - 1 <= k).
Lemma turn_bound s : niter s <= k -> niter (fst (turn a s)) <= k.
Proof.
  intros L. rewrite turn_niter. destruct (check_stop_conditions a s) as [e|] eqn:C; [exact L|].
  destruct (Nat.eq_dec (niter s) k) as [Q|Q]; [now destruct (St Q)|lia].
Qed.
Lemma loop_bound n : forall s, niter s <= k -> niter (fst (loop a n s)) <= k.
Proof.
  induction n as [|n IH]; intros s L; cbn [loop]; [exact L|]. assert (T := turn_bound L).
  destruct (turn a s) as [s' [e|]]; cbn [fst] in T; [exact T|]. now apply IH.
Qed.
Lemma initialize_niter s s' : initialize a s = Ok s' -> niter s' = order a - 1.
Proof. unfold initialize. destruct (_ && _)%bool; [discriminate|]. destruct (_ && _)%bool; intros H; injection H as <-; reflexivity. Qed.
Lemma next_bound n s : niter s <= k -> niter (fst (next a n s)) <= k.
Proof.
  intros L. unfold next. destruct (niter s =? order a - 1); [|now apply loop_bound].
  destruct (initialize a s) as [s'|e] eqn:I; [|exact L]. apply loop_bound. rewrite (initialize_niter I). exact O.
Qed.
Lemma swallow_fst (r : state V * option exn) : fst (swallow r) = fst r.
Proof. destruct r as [s [e|]]; [|reflexivity]. destruct e; reflexivity. Qed.
Lemma run_bound n s : niter s <= k -> niter (fst (run a n s)) <= k.
Proof. intros L. unfold run. destruct (order a - 1 <? niter s); [exact L|]. rewrite swallow_fst. now apply next_bound. Qed.
Lemma exec_bound c s : niter s <= k -> niter (fst (exec a c s)) <= k.
Proof.
  intros L. destruct c as [n|n| |n]; cbn [exec].
  - now apply next_bound.
  - now apply run_bound.
  - unfold cont. destruct (niter s =? 0); [exact L|]. rewrite swallow_fst. now apply next_bound.
  - unfold restart. destruct (initialize a s) as [s'|e] eqn:I; [|exact L]. apply run_bound. rewrite (initialize_niter I). exact O.
Qed.
Lemma execs_bound cs : forall s, niter s <= k -> niter (fst (execs a cs s)) <= k.
Proof.
  induction cs as [|c cs IH]; intros s L; cbn [execs]; [exact L|]. assert (B := exec_bound c L).
  destruct (exec a c s) as [s1 o]. cbn [fst] in B. specialize (IH s1 B). destruct (execs a cs s1) as [s2 os]. exact IH.
Qed.
End Bound.

(** Iterations that do not stop by themselves *)
Section Quiet.
Context (a : algo V).
Context (Q : forall n v, snd (iteration a n v) = Fine).
Context (NI : forall k, interrupt a k = false).
Lemma turn_quiet s : turn a s = match check_stop_conditions a s with Some e => (s, Some e) | None => (fst (turn a s), None) end.
Proof.
  unfold turn. destruct (check_stop_conditions a s) as [e|]; [reflexivity|].
  set (s1 := {| heap := heap s; top := top s; news := news s; hists := hists s; init := init s; niter := S (niter s); ticks := ticks s |}).
  assert (H : snd (iterate a s1) = Fine).
  { unfold iterate. specialize (Q (niter s1) (values s1)). destruct (iteration a (niter s1) (values s1)) as [vs o]. cbn [snd] in Q. subst o.
    destruct (inplace_recursion a); [reflexivity|]. destruct (allocate_new_state a); reflexivity. }
  destruct (iterate a s1) as [s2 o]. cbn [snd] in H. subst o. now rewrite NI.
Qed.
(** The loop stops exactly where the conditions say. *)
Lemma loop_stops k e : (forall s, niter s < k -> check_stop_conditions a s = None) -> (forall s, niter s = k -> check_stop_conditions a s = Some e) ->
  forall n s, niter s <= k -> k - niter s < n -> exists s', loop a n s = (s', Some e) /\ niter s' = k.
Proof.
  intros H1 H2 n. induction n as [|n IH]; intros s L F; [lia|]. cbn [loop]. rewrite turn_quiet.
  destruct (Nat.eq_dec (niter s) k) as [E|E].
  - rewrite (H2 s E). exists s. auto.
  - assert (C : check_stop_conditions a s = None) by (apply H1; lia). assert (T := turn_niter a s). rewrite C in T |- *.
    apply IH; lia.
Qed.
Lemma loop_goes k : (forall s, k <= niter s -> check_stop_conditions a s = None) ->
  forall n s, k <= niter s -> exists s', loop a n s = (s', None) /\ niter s' = niter s + n.
Proof.
  intros H n. induction n as [|n IH]; intros s L; cbn [loop]; [exists s; split; [reflexivity|lia]|]. rewrite turn_quiet, (H s L).
  assert (T := turn_niter a s). rewrite (H s L) in T. destruct (IH (fst (turn a s))) as (s' & E & N); [lia|]. exists s'. split; [exact E|lia].
Qed.
End Quiet.
End Count.

Section Runs.
Context {V E M : Type} (leb : E -> E -> bool) (error : nat -> list (list V) -> E).
Context (a0 : algo V) (normal abnormal : condition V E M).
Let a := set_buffer_handling (with_conditions leb error a0 normal abnormal).
Notation met := (met leb error).

Lemma conditions_none (s : state V) : (forall m, ~ met (niter s) (values s) normal m) -> (forall m, ~ met (niter s) (values s) abnormal m) ->
  check_stop_conditions a s = None.
Proof.
  intros N1 N2. unfold check_stop_conditions, a, set_buffer_handling, with_conditions. cbn [normal_stop abnormal_stop].
  destruct (check leb error normal (niter s) (values s)) as [m|] eqn:C1; [apply check_some in C1; now destruct (N1 m)|].
  destruct (check leb error abnormal (niter s) (values s)) as [m|] eqn:C2; [apply check_some in C2; now destruct (N2 m)|]. reflexivity.
Qed.
Lemma conditions_normal (s : state V) : (exists m, met (niter s) (values s) normal m) -> check_stop_conditions a s = Some StopIteration.
Proof.
  intros (m & H). unfold check_stop_conditions, a, set_buffer_handling, with_conditions. cbn [normal_stop abnormal_stop].
  destruct (check leb error normal (niter s) (values s)) as [m'|] eqn:C1; [reflexivity|]. now destruct (check_none C1 (m := m)).
Qed.
Lemma conditions_abnormal (s : state V) : (forall m, ~ met (niter s) (values s) normal m) -> (exists m, met (niter s) (values s) abnormal m) ->
  check_stop_conditions a s = Some AbnormalStopIteration.
Proof.
  intros N1 (m & H). unfold check_stop_conditions, a, set_buffer_handling, with_conditions. cbn [normal_stop abnormal_stop].
  destruct (check leb error normal (niter s) (values s)) as [m'|] eqn:C1; [apply check_some in C1; now destruct (N1 m')|].
  destruct (check leb error abnormal (niter s) (values s)) as [m'|] eqn:C2; [reflexivity|]. now destruct (check_none C2 (m := m)).
Qed.
Lemma new_niter (h : nat -> V) (t : nat) (ini : list (list nat)) (s : state V) : new_algo a h t ini = Ok s -> niter s = order a0 - 1.
Proof. unfold new_algo. destruct (_ && _)%bool; [discriminate|]. destruct (allocate_new_state a); intros H; injection H as <-; reflexivity. Qed.
Lemma never_passed (k : nat) (h : nat -> V) (t : nat) (ini : list (list nat)) (s : state V) (cs : list command) :
  (forall v, exists m, met k v normal m) \/ (forall v, exists m, met k v abnormal m) -> order a0 - 1 <= k -> new_algo a h t ini = Ok s ->
  niter (fst (execs a cs s)) <= k.
Proof.
  intros H O N. apply execs_bound; [|exact O|now rewrite (new_niter N)]. intros s' K.
  assert (D : check leb error normal (niter s') (values s') <> None \/ check leb error abnormal (niter s') (values s') <> None).
  { destruct H as [H|H]; [left|right]; destruct (H (values s')) as (m & Hm); rewrite <- K in Hm; intros C; now apply (check_none C) in Hm. }
  unfold check_stop_conditions, a, set_buffer_handling, with_conditions. cbn [normal_stop abnormal_stop].
  destruct (check leb error normal (niter s') (values s')); [discriminate|]. destruct (check leb error abnormal (niter s') (values s')); [discriminate|].
  destruct D as [D|D]; now destruct D.
Qed.

Context (Q : forall n v, snd (iteration a0 n v) = Fine).
Context (NI : forall k, interrupt a0 k = false).
Lemma run_first (n : option nat) (h : nat -> V) (t : nat) (ini : list (list nat)) (s : state V) : new_algo a h t ini = Ok s ->
  exists s0, niter s0 = order a0 - 1 /\ run a n s = swallow (loop a (match n with None | Some O => int_max a0 | Some n => n end) s0).
Proof.
  intros N. assert (K := new_niter N). unfold run, next. change (order a) with (order a0). rewrite K, Nat.ltb_irrefl, Nat.eqb_refl.
  assert (I : exists s0, initialize a s = Ok s0).
  { unfold initialize. change (order a) with (order a0). rewrite K, Nat.ltb_irrefl. cbn [andb]. destruct (_ && _)%bool; eexists; reflexivity. }
  destruct I as (s0 & I). rewrite I. exists s0. split; [exact (initialize_niter I)|]. reflexivity.
Qed.
Lemma stops_at (k : nat) (h : nat -> V) (t : nat) (ini : list (list nat)) (s : state V) : new_algo a h t ini = Ok s ->
  order a0 - 1 <= k < int_max a0 -> (forall n v m, n < k -> ~ met n v normal m /\ ~ met n v abnormal m) ->
  ((forall v, exists m, met k v normal m) -> exists s', run a None s = (s', None) /\ niter s' = k) /\
  ((forall v m, ~ met k v normal m) -> (forall v, exists m, met k v abnormal m) ->
     exists s', run a None s = (s', Some AbnormalStopIteration) /\ niter s' = k).
Proof.
  intros N O B. destruct (run_first None N) as (s0 & K & R). rewrite R.
  assert (H1 : forall s', niter s' < k -> check_stop_conditions a s' = None).
  { intros s' L. apply conditions_none; intros m; now apply B. }
  split.
  - intros H. destruct (@loop_stops V a Q NI k StopIteration H1) with (n := int_max a0) (s := s0) as (s' & L & S'); [|lia|lia|].
    + intros s' E'. apply conditions_normal. rewrite E'. apply H.
    + rewrite L. exists s'. split; [reflexivity|exact S'].
  - intros H H'. destruct (@loop_stops V a Q NI k AbnormalStopIteration H1) with (n := int_max a0) (s := s0) as (s' & L & S'); [|lia|lia|].
    + intros s' E'. apply conditions_abnormal; rewrite E'; [apply H|apply H'].
    + rewrite L. exists s'. split; [reflexivity|exact S'].
Qed.
Lemma never_stops (k : nat) (n : nat) (h : nat -> V) (t : nat) (ini : list (list nat)) (s : state V) : new_algo a h t ini = Ok s ->
  (forall n v m, order a0 - 1 <= n -> ~ met n v normal m /\ ~ met n v abnormal m) -> 1 <= n ->
  exists s', run a (Some n) s = (s', None) /\ niter s' = order a0 - 1 + n.
Proof.
  intros N B L. destruct (run_first (Some n) N) as (s0 & K & R). rewrite R. destruct n as [|n]; [lia|].
  destruct (@loop_goes V a Q NI (order a0 - 1)) with (n := S n) (s := s0) as (s' & G & C); [|lia|].
  - intros s' L'. apply conditions_none; intros m; now apply B.
  - rewrite G. exists s'. split; [reflexivity|]. lia.
Qed.
End Runs.

Lemma met_max {V E M : Type} (leb : E -> E -> bool) (error : nat -> list (list V) -> E) (k : Z) (msg m : M) n v :
  met leb error n v (MaxIteration k msg) m <-> Z.of_nat n = k /\ m = msg.
Proof. split; [intros H; inversion H; auto|intros [<- ->]; now constructor]. Qed.
Lemma met_no {V E M : Type} (leb : E -> E -> bool) (error : nat -> list (list V) -> E) (m : M) n v : ~ met leb error n v NoStop m.
Proof. intros H. inversion H. Qed.

(** An example: x_new = 2 x + x_old, of order 2 *)
Definition fibonacci : algo nat :=
  {| iteration := fun _ h => (match h with [x :: y :: _] => [2 * x + y] | _ => [] end, Fine); normal_stop := fun _ _ => false;
     abnormal_stop := fun _ _ => false; order := 2; inplace_recursion := false; allocate_new_state := true; reuse_initial_state := false;
     int_max := 100; interrupt := fun _ => false |}.
Definition latest (n : nat) (v : list (list nat)) : nat := hd 0 (hd [] v).
(** The state after the commands: number of iterations, values, outcomes *)
Definition ran (normal abnormal : condition nat nat nat) (cs : list command) : option (nat * list (list nat) * list (option exn)) :=
  let a := set_buffer_handling (with_conditions Nat.leb latest fibonacci normal abnormal) in
  match new_algo a (fun i => i) 3 [[1; 0]] with
  | Ok s => let (s', os) := execs a cs s in Some (niter s', values s', os)
  | Raise _ => None
  end.
