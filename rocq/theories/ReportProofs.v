From Coq Require Import List Arith Bool String Lia.
From Verif Require Import Base Algebra Ofield ReportModel ReportSpec.
Import ListNotations.
Set Implicit Arguments. Unset Strict Implicit.

Section Run.
Context {K : ofield} {V F : Type} (c g : nat -> K) (x : nat -> V).
Notation stop_condition := (stop_condition K).
Notation callback := (callback F).
Notation event := (event K V F).
Notation cont := (cont c g x).
Notation run := (run c g x).
Notation holds := (holds c g).
Notation residual := (residual c).
Notation first_stop := (first_stop c g).

Definition reached (k : nat) : algo K V :=
  {| a_iter := k; a_first := c 0; a_last := c (k - 1); a_current := c k; a_gnorm := g k; a_solution := x k |}.
Definition tested (sc : stop_condition) (k : nat) : stop_condition :=
  {| sc_maxiter := sc_maxiter sc; sc_tol := sc_tol sc; sc_gtol := sc_gtol sc; sc_all := sc_all sc;
     sc_resid := match sc_tol sc with Some _ => Some (residual k) | None => sc_resid sc end |}.

Lemma stop_call_holds (sc : stop_condition) k : exists b, stop_call sc (reached k) = (b, tested sc k) /\ (b = true <-> holds sc k).
Proof.
  destruct (stop_call sc (reached k)) as [b sc'] eqn:E. unfold stop_call in E. injection E as E1 E2. exists b. split; [f_equal; rewrite <- E2; reflexivity|].
  rewrite <- E1. clear. change (div (absolute _) _) with (residual k). cbn [a_iter a_gnorm reached]. unfold ReportSpec.holds, holds_all, holds_any, lt.
  destruct (sc_all sc).
  - rewrite forallb_forall. destruct (sc_maxiter sc) as [m|], (sc_tol sc) as [t|], (sc_gtol sc) as [u|]; cbn [app In id]; split.
    all: try (intros H; repeat split; intros y Y; try discriminate Y; injection Y as <-; try apply Nat.leb_le; apply H; tauto).
    all: intros (A & B & C) y Y; unfold id; repeat (destruct Y as [<-|Y]); try destruct Y; try (apply Nat.leb_le); auto.
  - rewrite existsb_exists. destruct (sc_maxiter sc) as [m|], (sc_tol sc) as [t|], (sc_gtol sc) as [u|]; cbn [app In id]; split.
    all: try (intros (y & Y & T); unfold id in T; subst y; repeat (destruct Y as [Y|Y]; [first [apply Nat.leb_le in Y; left; eexists; split; [reflexivity|exact Y] | right; left; eexists; split; [reflexivity|exact Y] | right; right; eexists; split; [reflexivity|exact Y]]|]); destruct Y).
    all: intros [(y & Y & T)|[(y & Y & T)|(y & Y & T)]]; try discriminate Y; injection Y as <-; exists true; split; try reflexivity; try (apply Nat.leb_le in T); auto.
Qed.

Lemma tested_holds (sc : stop_condition) j k : holds (tested sc j) k <-> holds sc k.
Proof. reflexivity. Qed.
Lemma tested_tested (sc : stop_condition) j k : tested (tested sc j) k = tested sc k.
Proof. unfold tested. cbn. destruct (sc_tol sc); reflexivity. Qed.

Definition at_iteration (cb : callback) (sc : stop_condition) (j : nat) : list event := callback_call cb (tested sc (j - 1)) (reached j).

Lemma cont_spec (cb : callback) : forall fuel k (sc sc' : stop_condition) es r, 1 <= k -> cont fuel cb sc (reached k) = (es, sc', r) -> exists n, n <= fuel
  /\ es = flat_map (at_iteration cb sc) (seq (S k) n) /\ (forall j, k <= j < k + n -> ~ holds sc j)
  /\ sc' = tested sc (k + n)
  /\ match r with Some a => a = reached (k + n) /\ holds sc (k + n) | None => n = fuel /\ ~ holds sc (k + n) end.
Proof.
  induction fuel as [|fuel IH]; intros k sc sc' es r Hk E; cbn [ReportModel.cont] in E;
    destruct (stop_call_holds sc k) as (b & SC & H); rewrite SC in E; destruct b.
  - injection E as <- <- <-. exists 0. rewrite Nat.add_0_r. split; [lia|]. split; [reflexivity|]. split; [intros; lia|]. split; [reflexivity|]. split; [reflexivity|apply H; reflexivity].
  - injection E as <- <- <-. exists 0. rewrite Nat.add_0_r. split; [lia|]. split; [reflexivity|]. split; [intros; lia|]. split; [reflexivity|]. split; [reflexivity|]. intros X. apply H in X. discriminate.
  - injection E as <- <- <-. exists 0. rewrite Nat.add_0_r. split; [lia|]. split; [reflexivity|]. split; [intros; lia|]. split; [reflexivity|]. split; [reflexivity|apply H; reflexivity].
  - unfold iterate in E. cbn [a_iter a_first a_current reached] in E.
    replace {| a_iter := Datatypes.S k; a_first := c 0; a_last := c k; a_current := c (Datatypes.S k); a_gnorm := g (Datatypes.S k); a_solution := x (Datatypes.S k) |}
      with (reached (Datatypes.S k)) in E by (unfold reached; rewrite Nat.sub_succ, Nat.sub_0_r; reflexivity).
    destruct (ReportModel.cont c g x fuel cb (tested sc k) (reached (Datatypes.S k))) as [[e' s''] r'] eqn:C. injection E as <- <- <-.
    destruct (IH _ _ _ _ _ (le_S _ _ Hk) C) as (n & L & -> & N & -> & R). exists (Datatypes.S n). split; [lia|]. split; [|split; [|split]].
    + cbn [seq flat_map]. unfold at_iteration at 2. rewrite Nat.sub_succ, Nat.sub_0_r. f_equal.
      apply flat_map_ext. intros j. unfold at_iteration. rewrite tested_tested. reflexivity.
    + intros j J. destruct (Nat.eq_dec j k) as [->|]; [intros X; apply H in X; discriminate|]. apply (N j). lia.
    + rewrite tested_tested. f_equal. lia.
    + replace (k + Datatypes.S n) with (Datatypes.S k + n) by lia. destruct r' as [a|]; [exact R|]. split; [lia|apply R].
Qed.

(** the stop condition at the time of the callback of the iteration j *)
Definition shown (sc : stop_condition) (j : nat) : stop_condition := if j =? 1 then sc else tested sc (j - 1).
Definition happens (cb : callback) (sc : stop_condition) (j : nat) : list event := callback_call cb (shown sc j) (reached j).

Lemma run_spec fuel (cb : callback) (sc sc' : stop_condition) es r : run fuel cb sc = (es, sc', r) -> exists N, 1 <= N <= S fuel
  /\ es = Deprecated :: flat_map (happens cb sc) (iterations N) /\ (forall j, 1 <= j < N -> ~ holds sc j)
  /\ sc' = tested sc N
  /\ match r with Some a => a = reached N /\ holds sc N | None => N = S fuel /\ ~ holds sc N end.
Proof.
  unfold ReportModel.run, iterate. cbn [a_iter a_first a_current initialize].
  change {| a_iter := 1; a_first := c 0; a_last := c 0; a_current := c 1; a_gnorm := g 1; a_solution := x 1 |} with (reached 1).
  destruct (ReportModel.cont c g x fuel cb sc (reached 1)) as [[e' s'] r'] eqn:C. intros E. injection E as <- <- <-.
  destruct (cont_spec (Nat.le_refl 1) C) as (n & L & -> & N & -> & R). exists (1 + n). split; [lia|]. split; [|split; [exact N|split; [reflexivity|]]].
  - unfold iterations. cbn [Nat.add seq flat_map]. f_equal. f_equal.
    rewrite !flat_map_concat_map. f_equal. apply map_ext_in. intros j J. apply in_seq in J. unfold happens, shown, at_iteration.
    destruct (Nat.eqb_spec j 1); [lia|reflexivity].
  - destruct r' as [a|]; [exact R|]. split; [lia|apply R].
Qed.

(** the events of one iteration *)
Definition lines_of (cb : callback) (j : nat) : list (nat * K) := if cb_verbose cb then [(j, c j)] else [].
Definition files_of (cb : callback) (j : nat) : list (F * nat * K * V) := match cb_savefile cb with Some f => [(f, j, c j, x j)] | None => [] end.
Definition figures_of (cb : callback) (j : nat) : list (nat * V) :=
  match cb_shape cb with Some [_] => [(1, x j)] | Some [_; _] => [(2, x j)] | _ => [] end.

Lemma all_of_flat {B} (p : event -> list B) (h : nat -> list event) l : all_of p (flat_map h l) = flat_map (fun j => all_of p (h j)) l.
Proof. induction l as [|j l IH]; [reflexivity|]. cbn [flat_map]. unfold all_of in *. rewrite flat_map_app, IH. reflexivity. Qed.
Ltac event_cases cb sc j :=
  unfold happens, callback_call, print_status, save; destruct (cb_verbose cb), (cb_savefile cb) as [f|], (cb_shape cb) as [[|? [|? [|? ?]]]|];
  cbn [a_iter reached length Nat.eqb]; destruct (j =? 1).
Lemma happens_lines (cb : callback) (sc : stop_condition) j : all_of line (happens cb sc j) = lines_of cb j.
Proof. unfold lines_of. event_cases cb sc j; reflexivity. Qed.
Lemma happens_files (cb : callback) (sc : stop_condition) j : all_of file (happens cb sc j) = files_of cb j.
Proof. unfold files_of. event_cases cb sc j; reflexivity. Qed.
Lemma happens_figures (cb : callback) (sc : stop_condition) j : all_of figure (happens cb sc j) = figures_of cb j.
Proof. unfold figures_of. event_cases cb sc j; reflexivity. Qed.
Lemma flat_single {B} (h : nat -> B) l : flat_map (fun j => [h j]) l = map h l.
Proof. induction l as [|j l IH]; [reflexivity|]. cbn. rewrite IH. reflexivity. Qed.
Lemma flat_nil {B} l : flat_map (fun _ : nat => @nil B) l = [].
Proof. induction l; [reflexivity|exact IHl]. Qed.
End Run.

Section More.
Context {K : ofield} {V F : Type} (c g : nat -> K) (x : nat -> V).
Notation event := (event K V F).
(** what is saved during an interrupted run: each prefix of the events of the iterations i, i + 1, ... *)
Lemma prefix_saved (cb : callback F) (sc : stop_condition K) f : cb_savefile cb = Some f -> forall N i (p q : list event),
  p ++ q = flat_map (happens c g x cb sc) (seq i N) -> exists n, n <= N /\ all_of file p = map (fun k => (f, k, c k, x k)) (seq i n)
  /\ forall k v, In (k, v) (all_of line p) -> k <= i + n.
Proof.
  intros Hf. induction N as [|N IH]; intros i p q E.
  - apply app_eq_nil in E. destruct E as [-> _]. exists 0. split; [lia|]. split; [reflexivity|]. intros k v [].
  - cbn [seq flat_map] in E. apply app_eq_app in E. destruct E as (l & [[E1 E2]|[E1 E2]]).
    + subst p. destruct (IH _ _ _ (eq_sym E2)) as (n & L & A & B). exists (S n). split; [lia|]. unfold all_of in *. rewrite !flat_map_app. split.
      * change (flat_map file (happens c g x cb sc i)) with (all_of file (happens c g x cb sc i)). rewrite happens_files. unfold files_of. rewrite Hf, A. reflexivity.
      * intros k v I. apply in_app_or in I. destruct I as [I|I]; [|apply B in I; lia].
        change (flat_map line (happens c g x cb sc i)) with (all_of line (happens c g x cb sc i)) in I. rewrite happens_lines in I. unfold lines_of in I.
        destruct (cb_verbose cb); [destruct I as [I|[]]; injection I as <- _; lia|destruct I].
    + pose proof (happens_lines c g x cb sc i) as HL. rewrite E1 in HL. unfold all_of in HL. rewrite flat_map_app in HL.
      assert (forall k v, In (k, v) (all_of line p) -> k <= i) as P.
      { intros k v I. assert (In (k, v) (lines_of c cb i)) as J by (rewrite <- HL; apply in_or_app; left; exact I). unfold lines_of in J.
        destruct (cb_verbose cb); [destruct J as [J|[]]; injection J as <- _; lia|destruct J]. }
      pose proof (happens_files c g x cb sc i) as HF. rewrite E1 in HF. unfold all_of in HF. rewrite flat_map_app in HF. unfold files_of in HF. rewrite Hf in HF.
      unfold all_of in *. destruct (flat_map file p) as [|y [|z l']].
      * exists 0. split; [lia|]. split; [reflexivity|]. intros k v I. apply P in I. lia.
      * exists 1. split; [lia|]. injection HF as -> _. split; [reflexivity|]. intros k v I. apply P in I. lia.
      * discriminate HF.
Qed.
Lemma header_once (cb : callback F) (sc : stop_condition K) l : ~ In 1 l -> ~ In Header (flat_map (happens c g x cb sc) l).
Proof.
  intros N I. apply in_flat_map in I. destruct I as (j & J & I). assert (j <> 1) as D by (intros ->; contradiction). apply Nat.eqb_neq in D.
  unfold happens, callback_call, print_status, save in I. destruct (cb_verbose cb), (cb_savefile cb) as [f|], (cb_shape cb) as [[|? [|? [|? ?]]]|];
    cbn [a_iter reached length Nat.eqb] in I; rewrite ?D in I; cbn in I; intuition discriminate.
Qed.
Lemma quiet (cb : callback F) (sc : stop_condition K) l : cb_verbose cb = false -> ~ In Header (flat_map (happens c g x cb sc) l).
Proof.
  intros Q I. apply in_flat_map in I. destruct I as (j & J & I).
  unfold happens, callback_call, print_status, save in I. rewrite Q in I. destruct (cb_savefile cb) as [f|], (cb_shape cb) as [[|? [|? [|? ?]]]|];
    cbn [a_iter reached length Nat.eqb] in I; cbn in I; intuition discriminate.
Qed.
Lemma line_residual (cb : callback F) (sc : stop_condition K) l k v o : In (Line k v o) (flat_map (happens c g x cb sc) l) -> o = stop_str (shown c sc k).
Proof.
  intros I. apply in_flat_map in I. destruct I as (j & J & I).
  unfold happens, callback_call, print_status, save in I. destruct (cb_verbose cb), (cb_savefile cb) as [f|], (cb_shape cb) as [[|? [|? [|? ?]]]|];
    cbn [a_iter reached length Nat.eqb] in I; destruct (j =? 1); cbn in I; repeat (destruct I as [I|I]; [first [discriminate I|injection I as <- _ <-; reflexivity]|]); destruct I.
Qed.
Lemma headed (cb : callback F) (sc : stop_condition K) N : cb_verbose cb = true -> 1 <= N ->
  exists rest, flat_map (happens c g x cb sc) (iterations N) = Header :: rest /\ ~ In Header rest.
Proof.
  intros Q L. destruct N as [|N]; [lia|]. unfold iterations. cbn [seq flat_map].
  assert (~ In Header (flat_map (happens c g x cb sc) (seq 2 N))) as H by (apply header_once; intros I; apply in_seq in I; lia).
  remember (flat_map _ (seq 2 N)) as r. unfold happens, callback_call, print_status, save. rewrite Q.
  cbn [a_iter reached Nat.eqb app]. eexists. split; [reflexivity|]. intros I. destruct I as [I|I]; [discriminate I|].
  apply in_app_or in I. destruct I as [I|I]; [|exact (H I)].
  destruct (cb_savefile cb) as [f|], (cb_shape cb) as [[|? [|? [|? ?]]]|]; cbn in I; intuition discriminate.
Qed.
End More.

Lemma get_first {W} (kw : keywords (W := W)) k d : (forall v, ~ In (k, v) kw) -> get kw k d = d.
Proof.
  intros H. unfold get. destruct (find _ kw) as [[k' v]|] eqn:E; [|reflexivity]. apply find_some in E. destruct E as [I E].
  apply String.eqb_eq in E. cbn in E. subst k'. destruct (H v I).
Qed.
Lemma get_given {W} (kw : keywords (W := W)) k v d : NoDup (map fst kw) -> In (k, v) kw -> get kw k d = v.
Proof.
  intros N I. unfold get. destruct (find _ kw) as [[k' v']|] eqn:E.
  - apply find_some in E. destruct E as [J E]. apply String.eqb_eq in E. cbn in E. subst k'. cbn.
    clear -N I J. induction kw as [|[a b] kw IH]; [destruct I|]. inversion N as [|? ? M N']. subst. destruct I as [I|I], J as [J|J].
    + congruence.
    + injection I as -> ->. destruct M. apply (in_map fst) in J. exact J.
    + injection J as -> ->. destruct M. apply (in_map fst) in I. exact I.
    + auto.
  - apply (find_none _ _ E) in I. cbn in I. rewrite String.eqb_refl in I. discriminate.
Qed.

(** ** Examples *)
From Coq Require Import QArith Qcanon.
Close Scope Qc_scope. Close Scope Q_scope.
(** criteria 16, 8, 4, 2, 1, 0, 0, ... *)
Definition fraction (r : Q) : Qf := Q2Qc r.
Definition halves (k : nat) : Qf := Q2Qc (16 / Z.of_nat (2 ^ k) # 1)%Q.
Definition tolerance (z : Z) (p : positive) : stop_condition Qf :=
  {| sc_maxiter := None; sc_tol := Some (fraction (z # p)); sc_gtol := None; sc_all := false; sc_resid := None |}.
Definition at_most (n : nat) : stop_condition Qf :=
  {| sc_maxiter := Some n; sc_tol := Some (fraction 0); sc_gtol := None; sc_all := false; sc_resid := None |}.
Definition talk : callback nat := {| cb_verbose := true; cb_savefile := Some 7; cb_shape := None |}.
Definition silent : callback nat := {| cb_verbose := false; cb_savefile := None; cb_shape := None |}.
(** events with fractions that compute *)
Inductive seen := SDeprecated | SHeader | SLine (k : nat) (v : Q) (r : option (Q * Q)) | SSaved (f k : nat) (v : Q) | SDrawn.
Definition see (e : event Qf unit nat) : seen :=
  match e with
  | Deprecated => SDeprecated | Header => SHeader
  | Line k v r => SLine k (this v) (option_map (fun p => (this (fst p), this (snd p))) r)
  | Saved f k v _ => SSaved f k (this v) | Drawn _ _ _ => SDrawn
  end.
Definition seen_run (fuel : nat) (cb : callback nat) (sc : stop_condition Qf) : list seen * option nat :=
  let '(es, _, r) := run halves (fun _ => fraction 1) (fun _ => tt) fuel cb sc in (map see es, option_map (@a_iter Qf unit) r).
(** two runs with the same stop condition *)
Definition seen_again (fuel : nat) (cb : callback nat) (sc : stop_condition Qf) : list seen :=
  let '(_, sc', _) := run halves (fun _ => fraction 1) (fun _ => tt) fuel cb sc in fst (seen_run fuel cb sc').
