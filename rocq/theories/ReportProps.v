(** C68: what acg and hacg print, save and return. *)
From Coq Require Import List Arith Bool String Lia QArith.
From Verif Require Import Base Algebra Ofield ReportModel ReportSpec ReportProofs.
Import ListNotations.
Close Scope Q_scope.

(** A run ends after the first iteration, from the first one on, after which the condition holds. *)
Theorem C68_ends : forall (K : ofield) V F (c g : nat -> K) (x : nat -> V) fuel (cb : callback F) sc N,
  first_stop c g sc N -> N <= S fuel -> exists es sc' a, run c g x fuel cb sc = (es, sc', Some a) /\ a_iter a = N /\ a_current a = c N /\ a_solution a = x N.
Proof.
  intros K V F c g x fuel cb sc N (L & H & B) M. destruct (run c g x fuel cb sc) as [[es sc'] r] eqn:E.
  destruct (run_spec E) as (N' & L' & _ & B' & _ & R). destruct r as [a|].
  - destruct R as [-> H']. assert (N' = N) as ->. { destruct (Nat.lt_trichotomy N' N) as [T|[T|T]]; [exfalso; apply (B N'); [lia|exact H']|exact T|exfalso; apply (B' N); [lia|exact H]]. }
    exists es, sc', (reached c g x N). repeat split.
  - destruct R as [-> H']. exfalso. destruct (Nat.eq_dec N (S fuel)) as [->|]; [exact (H' H)|]. apply (B' N); [lia|exact H].
Qed.
Example C68_ends_case : first_stop halves (fun _ => fraction 1) (tolerance 1 5) 3 /\ snd (seen_run 5 talk (tolerance 1 5)) = Some 3.
Proof.
  split; [|vm_compute; reflexivity]. split; [lia|]. split; [right; left; eexists; split; [reflexivity|vm_compute; reflexivity]|].
  intros k L [(m & M & _)|[(t & T & H)|(t & T & _)]]; [discriminate M| |discriminate T]. injection T as <-. assert (k = 1 \/ k = 2) as [-> | ->] by lia; vm_compute in H; discriminate H.
Qed.

(** A run that ended did the iterations 1 to N, where N is the first one after which the condition holds; with verbose=True each of them has one line,
    in order, with the criterion of this iteration; with a savefile each of them is saved; with a shape of one or two dimensions each solution is drawn. *)
Theorem C68_reports : forall (K : ofield) V F (c g : nat -> K) (x : nat -> V) fuel (cb : callback F) sc es sc' a,
  run c g x fuel cb sc = (es, sc', Some a) -> let N := a_iter a in first_stop c g sc N /\ a_solution a = x N
  /\ all_of line es = (if cb_verbose cb then map (fun k => (k, c k)) (iterations N) else [])
  /\ all_of file es = match cb_savefile cb with Some f => map (fun k => (f, k, c k, x k)) (iterations N) | None => [] end
  /\ all_of figure es = match cb_shape cb with Some [_] => map (fun k => (1, x k)) (iterations N) | Some [_; _] => map (fun k => (2, x k)) (iterations N) | _ => [] end.
Proof.
  intros K V F c g x fuel cb sc es sc' a E. destruct (run_spec E) as (N & L & -> & B & _ & -> & H). cbn zeta. cbn [a_iter a_solution reached].
  split; [split; [lia|split; [exact H|exact B]]|]. split; [reflexivity|]. unfold all_of at 1 2 3. cbn [flat_map line file figure app].
  change (flat_map line) with (@all_of K V F _ line). change (flat_map file) with (@all_of K V F _ file). change (flat_map figure) with (@all_of K V F _ figure).
  rewrite !all_of_flat. split; [|split].
  - rewrite (flat_map_ext _ _ (happens_lines c g x cb sc)). unfold lines_of. destruct (cb_verbose cb); [apply flat_single|apply flat_nil].
  - rewrite (flat_map_ext _ _ (happens_files c g x cb sc)). unfold files_of. destruct (cb_savefile cb); [apply flat_single|apply flat_nil].
  - rewrite (flat_map_ext _ _ (happens_figures c g x cb sc)). unfold figures_of. destruct (cb_shape cb) as [[|? [|? [|? ?]]]|]; first [apply flat_single|apply flat_nil].
Qed.
Example C68_reports_case : seen_run 5 talk (at_most 2) = ([SDeprecated; SHeader; SLine 1 8 None; SSaved 7 1 8; SLine 2 4 (Some (1 # 2, 0)); SSaved 7 2 4]%Q, Some 2).
Proof. vm_compute. reflexivity. Qed.

(** The header is printed once, before the lines, if verbose is true, and never otherwise. *)
Theorem C68_header : forall (K : ofield) V F (c g : nat -> K) (x : nat -> V) fuel (cb : callback F) sc es sc' r,
  run c g x fuel cb sc = (es, sc', r) ->
  if cb_verbose cb then exists rest, es = Deprecated :: Header :: rest /\ ~ In Header rest else ~ In Header es.
Proof.
  intros K V F c g x fuel cb sc es sc' r E. destruct (run_spec E) as (N & L & -> & _). destruct (cb_verbose cb) eqn:Q.
  - destruct (headed c g x sc Q (proj1 L)) as (rest & -> & H). exists rest. split; [reflexivity|exact H].
  - intros [I|I]; [discriminate I|]. exact (quiet Q I).
Qed.

(** Whenever the run is interrupted, even in an iteration, what has been saved are the results of the first iterations, and at most one iteration
    was announced and not saved. *)
Theorem C68_saved : forall (K : ofield) V F (c g : nat -> K) (x : nat -> V) fuel (cb : callback F) f sc es sc' r before after,
  run c g x fuel cb sc = (es, sc', r) -> cb_savefile cb = Some f -> es = before ++ after ->
  exists n, all_of file before = map (fun k => (f, k, c k, x k)) (iterations n) /\ forall k v, In (k, v) (all_of line before) -> k <= S n.
Proof.
  intros K V F c g x fuel cb f sc es sc' r before after E H A. destruct (run_spec E) as (N & _ & -> & _). destruct before as [|b before].
  - exists 0. split; [reflexivity|]. intros k v [].
  - injection A as <- A. destruct (prefix_saved H (eq_sym A)) as (n & _ & P & Q). exists n. split; [exact P|]. intros k v I. exact (Q k v I).
Qed.
Example C68_saved_case : cb_savefile talk = Some 7
  /\ fst (seen_run 5 talk (at_most 2)) = [SDeprecated; SHeader; SLine 1 8 None; SSaved 7 1 8; SLine 2 4 (Some (1 # 2, 0))]%Q ++ [SSaved 7 2 4]%Q.
Proof. split; vm_compute; reflexivity. Qed.

(** The residual printed after the first line is that of the previous iteration. *)
Theorem C68_residual : forall (K : ofield) V F (c g : nat -> K) (x : nat -> V) fuel (cb : callback F) sc es sc' r k v o,
  run c g x fuel cb sc = (es, sc', r) -> In (Line k v o) es -> 2 <= k ->
  forall t, sc_tol sc = Some t -> o = Some (residual c (k - 1), t).
Proof.
  intros K V F c g x fuel cb sc es sc' r k v o E I L t T. destruct (run_spec E) as (N & _ & -> & _). destruct I as [I|I]; [discriminate I|].
  apply line_residual in I. subst o. unfold shown. destruct (Nat.eqb_spec k 1); [lia|]. unfold stop_str, tested. cbn. rewrite T. reflexivity.
Qed.
(** Finding: the residual printed by acg and hacg with verbose=True is not that of the iteration of the line: the callback is called before the
    stop condition computes the residual.  The first line has none and the others have that of the iteration before: here the second
    line says 1/2, whereas the decrease of the second iteration, from 8 to 4, is 1/4 of the first criterion. *)
Theorem C68_residual_refuted : fst (seen_run 5 talk (at_most 2)) = [SDeprecated; SHeader; SLine 1 8 None; SSaved 7 1 8; SLine 2 4 (Some (1 # 2, 0)); SSaved 7 2 4]%Q
  /\ Qeq (Qcanon.this (residual halves 2)) (1 # 4).
Proof. split; vm_compute; reflexivity. Qed.
(** Finding: a stop condition keeps its residual between runs, and the algorithms made without the argument stop_condition share one: the first line of
    the second run shows the last residual of the first run. *)
Theorem C68_rerun_refuted : seen_again 5 talk (at_most 2) = [SDeprecated; SHeader; SLine 1 8 (Some (1 # 4, 0)); SSaved 7 1 8; SLine 2 4 (Some (1 # 2, 0)); SSaved 7 2 4]%Q.
Proof. vm_compute. reflexivity. Qed.
(** Finding: even with verbose=False each run prints the message that the class Algorithm is deprecated. *)
Theorem C68_quiet_refuted : seen_run 5 silent (at_most 2) = ([SDeprecated], Some 2).
Proof. vm_compute. reflexivity. Qed.

(** The keywords of acg and hacg reach the stop condition and the callback, and have the defaults of the documentation otherwise. *)
Theorem C68_keywords : forall W (none tol gtol np_any false_ empty : W) kw maxiter t g cond verbose savefile shape,
  constructor none tol gtol np_any false_ empty kw = Ok (maxiter, t, g, cond, (verbose, savefile, shape)) -> NoDup (map fst kw) ->
  forall k v d, In (k, v, d) [("maxiter", maxiter, none); ("tol", t, tol); ("gtol", g, gtol); ("cond", cond, np_any); ("verbose", verbose, false_);
                              ("savefile", savefile, none); ("shape", shape, empty)]%string ->
  (forall w, In (k, w) kw -> v = w) /\ ((forall w, ~ In (k, w) kw) -> v = d).
Proof.
  intros W none tol gtol np_any false_ empty kw maxiter t g cond verbose savefile shape E N k v d I. unfold constructor in E. destruct (existsb _ kw); [discriminate E|].
  injection E as <- <- <- <- <- <- <-. cbn [In] in I. repeat (destruct I as [I|I]; [injection I as <- <- <-; split; [intros w J; apply get_given; assumption|apply get_first]|]). destruct I.
Qed.
Example C68_keywords_case : constructor 0 1 2 3 4 5 [("tol", 8); ("verbose", 9)]%string = Ok (0, 8, 2, 3, (9, 0, 5)).
Proof. reflexivity. Qed.
(** Finding: the functions acg and hacg cannot be given a stop condition or a callback: they pass their own ones besides those of the caller, and Python raises
    TypeError. *)
Theorem C68_stop_condition_refuted : forall W (none tol gtol np_any false_ empty w : W) k kw, k = "stop_condition"%string \/ k = "callback"%string ->
  In (k, w) kw -> constructor none tol gtol np_any false_ empty kw = Raise TypeError.
Proof.
  intros W none tol gtol np_any false_ empty w k kw H I. unfold constructor. replace (existsb _ kw) with true; [reflexivity|]. symmetry. apply existsb_exists.
  exists (k, w). split; [exact I|]. destruct H as [-> | ->]; reflexivity.
Qed.
(** Finding: a misspelt keyword is accepted and ignored: acg(model, data, max_iter=10) has no limit on the number of iterations. *)
Theorem C68_misspelt_refuted : constructor 0 1 2 3 4 5 [("max_iter", 10)]%string = constructor 0 1 2 3 4 5 [].
Proof. reflexivity. Qed.
(** acg returns the algorithm with the solution if it is asked to. *)
Theorem C68_return_algo : forall b, acg_returns b = Both <-> b = true.
Proof. intros []; cbn; split; congruence. Qed.
(** Finding: hacg ignores its argument return_algo and returns the solution alone. *)
Theorem C68_return_algo_refuted : hacg_returns true = Solution.
Proof. reflexivity. Qed.
Print Assumptions C68_ends.
Print Assumptions C68_reports.
Print Assumptions C68_header.
Print Assumptions C68_saved.
Print Assumptions C68_residual.
Print Assumptions C68_residual_refuted.
Print Assumptions C68_rerun_refuted.
Print Assumptions C68_quiet_refuted.
Print Assumptions C68_keywords.
Print Assumptions C68_stop_condition_refuted.
Print Assumptions C68_misspelt_refuted.
Print Assumptions C68_return_algo.
Print Assumptions C68_return_algo_refuted.
