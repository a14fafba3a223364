(** C65: the keywords of an iterative algorithm determine its recursion. *)
From Coq Require Import Ascii String Sorting.Sorted Permutation.
From Verif Require Import Base RecurModel RecurSpec RecurProofs.

(** The recursion described in the documentation: from the values x, x_old, x_old2... of n consecutive states of some variables, in any order
    and with the dtypes of some of them, the algorithm is of order n and has these variables.  *)
Theorem C65_recursion : forall default (kws : keywords) vs n, NoDup (map fst kws) -> 1 <= n -> vs <> [] -> NoDup vs ->
  (forall v, In v vs -> plain v) ->
  (forall v, In v vs -> exists sh, values_given kws n v sh) -> (forall v, In v vs -> dtype_possible kws n default v) ->
  (forall k, In k (map fst kws) -> exists v, In v vs /\ ((exists j, j < n /\ k = v ++ older j) \/ k = v ++ spelled "_new" \/ k = v ++ spelled "_dtype")) ->
  exists a, construct false default kws = Ok a /\ a_order a = n /\ Permutation vs (map e_variable (a_info a)) /\
            Sorted alphabetical (map e_variable (a_info a)).
Proof.
  intros default kws vs n N L Ne Nv P G D A.
  assert (G' : forall v j, In v vs -> j < n -> In (v ++ older j) (map fst kws)).
  { intros v j I Lj. destruct (G v I) as (sh & H). destruct (H j Lj) as (x & J & _). now apply (in_map fst) in J. }
  assert (R := documented_order L Ne P G' A).
  destruct (proj2 (accepted_iff false default N R)) as (a & H).
  { intros v I Pv. assert (Iv : In v vs) by (apply (documented_plain P G' L A); now split). split; [now apply G|now apply D]. }
  exists a. split; [assumption|]. split; [exact (order_unique (proj1 (order_is H)) R)|]. rewrite (info_variables H). split; [|apply sort_sorted].
  apply NoDup_Permutation; [assumption| |].
  - apply (Permutation_NoDup (sort_perm _)). now apply NoDup_filter.
  - intros v. rewrite in_variables. symmetry. exact (documented_plain P G' L A v).
Qed.
Example C65_recursion_ex : exists a, construct false single second_order = Ok a /\ a_order a = 2 /\ a_niterations a = 1 /\
  map e_variable (a_info a) = [lit "x"; lit "y"] /\ map e_names (a_info a) = [[lit "x_new"; lit "x"; lit "x_old"]; [lit "y_new"; lit "y"; lit "y_old"]] /\
  map e_dtype (a_info a) = [{| d_kind := Integer; d_bits := 64 |}; {| d_kind := Complex; d_bits := 64 |}].
Proof. eexists. split; [vm_compute; reflexivity|]. repeat split. Qed.

(** Whatever the keywords, the order is the number of consecutive previous values that are given for at least one name, plus one; the number of
    iterations starts from the order minus one. *)
Theorem C65_order : forall (inplace : bool) default (kws : keywords) a, construct inplace default kws = Ok a ->
  recursion_order (map fst kws) (a_order a) /\ a_niterations a = a_order a - 1.
Proof. intros inplace default kws a. apply order_is. Qed.
(** The variables are the keywords that do not end in _old, _old2..., _new or _dtype, in the alphabetical order. *)
Theorem C65_variables : forall (inplace : bool) default (kws : keywords) a, construct inplace default kws = Ok a ->
  Sorted alphabetical (map e_variable (a_info a)) /\ forall v, In v (map e_variable (a_info a)) <-> In v (map fst kws) /\ plain v.
Proof. intros inplace default kws a H. rewrite (info_variables H). split; [apply sort_sorted|apply in_variables]. Qed.
(** Keywords are accepted if and only if all the values of each variable are given, with the same shape, and there is a dtype for them. *)
Theorem C65_accepted : forall (inplace : bool) default (kws : keywords) n, NoDup (map fst kws) -> recursion_order (map fst kws) n ->
  let m := if inplace then 1 else n in
  (exists a, construct inplace default kws = Ok a) <->
  forall v, In v (map fst kws) -> plain v -> (exists sh, values_given kws m v sh) /\ dtype_possible kws m default v.
Proof. intros inplace default kws n. exact (@accepted_iff inplace default kws n). Qed.
(** The shape of a variable is the one of all its values. *)
Theorem C65_shape : forall (inplace : bool) default (kws : keywords) a e, NoDup (map fst kws) -> construct inplace default kws = Ok a -> In e (a_info a) ->
  values_given kws (if inplace then 1 else a_order a) (e_variable e) (e_shape e).
Proof. intros inplace default kws a e N H I. apply (info_entries N H I). Qed.
(** A value that is not given raises ValueError. *)
Theorem C65_missing : forall (inplace : bool) default (kws : keywords) n v j, recursion_order (map fst kws) n -> In v (map fst kws) -> plain v ->
  j < (if inplace then 1 else n) -> ~ In (v ++ older j) (map fst kws) -> construct inplace default kws = Raise ValueError.
Proof. intros inplace default kws n v j. exact (@missing_raises inplace default kws n v j). Qed.
Example C65_missing_ex : recursion_order (map fst [(lit "x", scalar); (lit "y", scalar); (lit "x_old", scalar)]) 2 /\ plain (lit "y") /\
  construct false single [(lit "x", scalar); (lit "y", scalar); (lit "x_old", scalar)] = Raise ValueError /\
  construct false single [(lit "x", Value [2] Float); (lit "x_old", scalar)] = Raise ValueError.
Proof. split; [now apply recursion_order_by|]. split; [now apply plain_bool|]. split; reflexivity. Qed.
(** The dtype of a variable is the one that is given for it, and otherwise the default one, made complex with the same precision if it is a
    floating-point one and one of the values is complex. *)
Theorem C65_dtype : forall (inplace : bool) default (kws : keywords) a e, NoDup (map fst kws) -> construct inplace default kws = Ok a -> In e (a_info a) ->
  let m := if inplace then 1 else a_order a in
  (forall d, In (e_variable e ++ spelled "_dtype", Type_ d) kws -> e_dtype e = d) /\
  (without_dtype kws (e_variable e) ->
    (d_kind default = Float -> complex_value kws m (e_variable e) -> e_dtype e = {| d_kind := Complex; d_bits := 2 * d_bits default |}) /\
    (~ (d_kind default = Float /\ complex_value kws m (e_variable e)) -> e_dtype e = default)).
Proof. intros inplace default kws a e N H I. apply (info_entries N H I). Qed.
(** The attributes x_new, x, x_old... of all the variables are different: updating one does not alter another. *)
Theorem C65_distinct : forall (inplace : bool) default (kws : keywords) a, NoDup (map fst kws) -> construct inplace default kws = Ok a ->
  NoDup (concat (map e_names (a_info a))) /\
  forall e, In e (a_info a) -> e_names e = map (fun s => e_variable e ++ s)
    (if inplace then [[]] else spelled "_new" :: map older (seq 0 (a_order a))).
Proof.
  intros inplace default kws a N H. split; [now apply (names_distinct N H)|]. intros e I. rewrite (proj1 (info_entries N H I)).
  destruct inplace; [reflexivity|]. f_equal. apply get_suffix_older. apply (order_is H).
Qed.
Example C65_distinct_ex : NoDup (map fst second_order) /\ exists a, construct false single second_order = Ok a /\
  concat (map e_names (a_info a)) = [lit "x_new"; lit "x"; lit "x_old"; lit "y_new"; lit "y"; lit "y_old"].
Proof. split; [now apply nodup_by|]. eexists. split; [vm_compute; reflexivity|reflexivity]. Qed.

(** Finding: an initial value that cannot be used is not reported. IterativeAlgorithm(x=..., x_old=..., x_old3=...), in which x_old2 is
    missing, is accepted as a recursion of order 2: x_old3 is silently ignored. *)
Theorem C65_gap_refuted : exists (kws : keywords) a, In (lit "x" ++ older 3) (map fst kws) /\ construct false single kws = Ok a /\ a_order a = 2 /\
  ~ In (lit "x" ++ older 3) (concat (map e_names (a_info a))).
Proof.
  exists [(lit "x", scalar); (lit "x_old", scalar); (lit "x_old3", scalar)]. eexists. split; [right; right; now left|].
  split; [vm_compute; reflexivity|]. split; [reflexivity|]. intros I. vm_compute in I. intuition discriminate.
Qed.
(** Finding: the previous value of a variable whose current value is not given is silently ignored: IterativeAlgorithm(x=..., x_old=...,
    y_old=...) has the only variable x, instead of raising the error "The initial value 'y' is not specified". *)
Theorem C65_orphan_refuted : exists (kws : keywords) a, In (lit "y" ++ older 1) (map fst kws) /\ construct false single kws = Ok a /\
  map e_variable (a_info a) = [lit "x"].
Proof.
  exists [(lit "x", scalar); (lit "x_old", scalar); (lit "y_old", scalar)]. eexists. split; [right; right; now left|].
  split; [vm_compute; reflexivity|reflexivity].
Qed.
(** Finding: an in-place recursion ignores the previous values, but counts them in its order: IterativeAlgorithm(x=..., x_old=...,
    inplace_recursion=True) has only the attribute x, no x_old, yet starts with niterations equal to 1. *)
Theorem C65_inplace_refuted : exists (kws : keywords) a, construct true single kws = Ok a /\ a_order a = 2 /\ a_niterations a = 1 /\
  concat (map e_names (a_info a)) = [lit "x"] /\ In (lit "x_old") (map fst kws).
Proof. exists [(lit "x", scalar); (lit "x_old", scalar)]. eexists. split; [vm_compute; reflexivity|]. repeat split. right. now left. Qed.
(** Finding: the documentation of the argument dtype says that "complex variables stay complex", which is false for a dtype that is not a
    floating-point one: with dtype=int a complex initial value becomes an integer.  With half precision it raises TypeError, since there is no
    complex dtype of that precision. *)
Theorem C65_complex_refuted : exists (kws : keywords), kws = [(lit "x", Value [3] Complex)] /\
  (exists a, construct false {| d_kind := Integer; d_bits := 64 |} kws = Ok a /\ map e_dtype (a_info a) = [{| d_kind := Integer; d_bits := 64 |}]) /\
  construct false {| d_kind := Float; d_bits := 16 |} kws = Raise TypeError.
Proof. eexists. split; [reflexivity|]. split; [|reflexivity]. eexists. split; [vm_compute; reflexivity|reflexivity]. Qed.

(** With disp=True, the values of the variables are displayed at each iteration if there is one variable, or if the recursion is in place. *)
Theorem C65_display : forall (inplace : bool) default (kws : keywords) a, construct inplace default kws = Ok a ->
  (inplace = true -> display inplace a = Ok (map e_variable (a_info a))) /\
  forall v, inplace = false -> map e_variable (a_info a) = [v] -> display inplace a = Ok [v ++ spelled "_new"].
Proof.
  intros inplace default kws a _. split; [intros ->; reflexivity|]. intros v -> E. unfold display. rewrite E. reflexivity.
Qed.
(** Finding: with disp=True, an algorithm with several variables whose recursion is not in place raises UnboundLocalError at its first
    iteration: the default callback builds the dictionary of their values, but does not assign it to the local variable it prints. *)
Theorem C65_display_refuted : forall default (kws : keywords) a, construct false default kws = Ok a -> 2 <= List.length (a_info a) ->
  forall shown, display false a <> Ok shown.
Proof.
  intros default kws a _ L shown. unfold display. rewrite map_length. destruct (Nat.eqb_spec (List.length (a_info a)) 1); [lia|discriminate].
Qed.
Example C65_display_ex : exists a, construct false single second_order = Ok a /\ List.length (a_info a) = 2 /\ display true a = Ok [lit "x"; lit "y"].
Proof. eexists. split; [vm_compute; reflexivity|]. split; reflexivity. Qed.

Print Assumptions C65_recursion.
Print Assumptions C65_order.
Print Assumptions C65_variables.
Print Assumptions C65_accepted.
Print Assumptions C65_shape.
Print Assumptions C65_missing.
Print Assumptions C65_dtype.
Print Assumptions C65_distinct.
Print Assumptions C65_gap_refuted.
Print Assumptions C65_orphan_refuted.
Print Assumptions C65_inplace_refuted.
Print Assumptions C65_complex_refuted.
Print Assumptions C65_display.
Print Assumptions C65_display_refuted.
