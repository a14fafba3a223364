(** C67: NormalizeOperator divides each vector by its norm. *)
From Coq Require Import List Arith QArith Qcanon Lia.
From Verif Require Import Base Algebra Ofield NormModel NormSpec NormProofs.
Import ListNotations.
Close Scope Qc_scope. Close Scope Q_scope.

(** The operator on real numbers: any ordered field, with a function rt which gives square roots. *)
Notation normalize rt := (direct r0 radd (fun v => rmul v v) rt div).

(** The result is the unit vector of the direction of the input, in place or not. *)
Theorem C67_unit : forall (K : ofield) (rt : K -> K) rows n input output (m : mem K) r,
  same_or_apart (rows * n) input output -> r < rows -> nonzero n (row n input m r) -> root_at rt (squared_norm n (row n input m r)) ->
  let y := row n output (normalize rt rows n input output m) r in
  unit_vector n y /\ same_direction n (row n input m r) y
  /\ forall z, unit_vector n z -> same_direction n (row n input m r) z -> forall j, j < n -> z j = y j.
Proof.
  intros K rt rows n input output m r A R N Q y. assert (forall j, j < n -> y j = normalised rt n (row n input m r) j) as E by (intros; apply np_normalised; assumption).
  assert (unit_vector n y) as U by (etransitivity; [apply sum_ext; intros j J; rewrite (E j J); reflexivity|apply (normalised_unit N Q)]).
  assert (same_direction n (row n input m r) y) as D by (destruct (normalised_direction N Q) as (c & P & H); exists c; split; [exact P|intros j J; rewrite (E j J); apply H, J]).
  repeat split; [exact U|exact D|]. intros z W Z. apply unit_unique; [|exact U|exact W]. exact (same_direction_trans (same_direction_sym D) Z).
Qed.
Example C67_unit_case : exists m rows n, (forall r, r < rows -> nonzero n (row n 0 m r) /\ root_at some_roots (squared_norm n (row n 0 m r)))
  /\ fractions (map (normalize some_roots rows n 0 0 m) [0; 1; 2; 3]) = [3 # 5; 4 # 5; -3 # 5; 4 # 5]%Q.
Proof.
  exists two_vectors, 2, 2. split; [|vm_compute; reflexivity]. intros [|[|r]] L; [| |lia].
  all: split; [exists 0; split; [lia|vm_compute; discriminate]|split; [vm_compute; reflexivity|apply Qc_is_canon; vm_compute; reflexivity]].
Qed.

(** Only the output is written. *)
Theorem C67_others : forall (K : ofield) (rt : K -> K) rows n input output (m : mem K) b,
  same_or_apart (rows * n) input output -> b < output \/ output + rows * n <= b -> normalize rt rows n input output m b = m b.
Proof. intros. apply direct_others; assumption. Qed.
Example C67_others_case : same_or_apart 4 0 4 /\ fractions (map (normalize some_roots 2 2 0 4 two_vectors) (seq 0 9))
  = map inject_Z [3; 4; -6; 8]%Z ++ [3 # 5; 4 # 5; -3 # 5; 4 # 5; 0]%Q.
Proof. split; [right; left; lia|vm_compute; reflexivity]. Qed.

(** In place and out of place give the same. *)
Theorem C67_in_place : forall (K : ofield) (rt : K -> K) rows n input output (m : mem K) r j,
  same_or_apart (rows * n) input output -> r < rows -> j < n ->
  row n input (normalize rt rows n input input m) r j = row n output (normalize rt rows n input output m) r j.
Proof. intros K rt rows n input output m r j A R J. rewrite !np_normalised; trivial. left. reflexivity. Qed.
Example C67_in_place_case : fractions (map (normalize some_roots 2 2 0 0 two_vectors) (seq 0 4)) = fractions (map (normalize some_roots 2 2 0 4 two_vectors) (seq 4 4)).
Proof. vm_compute. reflexivity. Qed.

(** Normalising again changes nothing. *)
Theorem C67_idempotent : forall (K : ofield) (rt : K -> K) rows n input (m : mem K) r j,
  let w := normalize rt rows n input input m in r < rows -> j < n -> nonzero n (row n input m r) ->
  root_at rt (squared_norm n (row n input m r)) -> root_at rt r1 -> row n input (normalize rt rows n input input w) r j = row n input w r j.
Proof.
  intros K rt rows n input m r j w R J N Q O. assert (same_or_apart (rows * n) input input) as A by (left; reflexivity).
  destruct (C67_unit K rt rows n input input m r A R N Q) as (U & D & _). fold w in U, D. unfold unit_vector in U.
  assert (nonzero n (row n input w r)) as N'. { destruct N as (k & L & X), (same_direction_sym D) as (c & P & H). exists k. split; [exact L|]. intros Z. apply X. rewrite (H k L), Z. apply rmul_0_r. }
  assert (root_at rt (squared_norm n (row n input w r))) as Q' by (rewrite U; exact O).
  destruct (C67_unit K rt rows n input input w r A R N' Q') as (_ & _ & V). symmetry. apply V; [exact U| |exact J].
  exists r1. split; [apply lt_0_1; intros Z|].
  - destruct N as (k & L & X). apply X. transitivity (rmul r1 (row n input m r k)); [symmetry; apply rmul_1_l|rewrite Z; apply rmul_0_l].
  - intros. symmetry. apply rmul_1_l.
Qed.
Example C67_idempotent_case : let w := normalize some_roots 2 2 0 0 two_vectors in
  root_at some_roots r1 /\ fractions (map (normalize some_roots 2 2 0 0 w) [0; 1; 2; 3]) = fractions (map w [0; 1; 2; 3]).
Proof. split; [split; [vm_compute; reflexivity|apply Qc_is_canon; vm_compute; reflexivity]|vm_compute; reflexivity]. Qed.

(** Vectors of the same direction have the same normalised vector. *)
Theorem C67_scale : forall (K : ofield) (rt : K -> K) rows n input output (m m' : mem K) r j,
  same_or_apart (rows * n) input output -> r < rows -> j < n -> nonzero n (row n input m r) ->
  same_direction n (row n input m r) (row n input m' r) ->
  root_at rt (squared_norm n (row n input m r)) -> root_at rt (squared_norm n (row n input m' r)) ->
  row n output (normalize rt rows n input output m') r j = row n output (normalize rt rows n input output m) r j.
Proof.
  intros K rt rows n input output m m' r j A R J N D Q Q'.
  assert (nonzero n (row n input m' r)) as N'. { destruct N as (k & L & X), (same_direction_sym D) as (c & P & H). exists k. split; [exact L|]. intros Z. apply X. rewrite (H k L), Z. apply rmul_0_r. }
  destruct (C67_unit K rt rows n input output m r A R N Q) as (_ & _ & V), (C67_unit K rt rows n input output m' r A R N' Q') as (U & D' & _).
  apply V; [exact U| |exact J]. exact (same_direction_trans D D').
Qed.
Example C67_scale_case : let double (a : nat) := rmul (q 2) (nth a [q 3; q 4] (q 0)) in let simple (a : nat) := nth a [q 3; q 4] (q 0) in
  same_direction 2 (row 2 0 simple 0) (row 2 0 double 0)
  /\ fractions (map (normalize some_roots 1 2 0 2 double) [2; 3]) = [3 # 5; 4 # 5]%Q.
Proof. split; [exists (q 2); split; [reflexivity|reflexivity]|vm_compute; reflexivity]. Qed.

(** Finding: NormalizeOperator(dtype=complex) adds the squares of the elements, not the squares of their moduli: the norm of the
    result is not 1.  Here the vector is (5, 3i), and the squared norm of the result is 17/8; the vector (1, i) would be divided by zero. *)
Theorem C67_complex_refuted : forall csqrt : complex -> complex, csqrt (16, 0)%Q = (4, 0)%Q -> exists m : mem complex,
  let w := direct (0, 0)%Q cadd csquare csqrt cdivide 1 2 0 2 m in
  m 0 = (5, 0)%Q /\ m 1 = (0, 3)%Q /\ (modulus2 (w 2%nat) + modulus2 (w 3%nat) == 17 # 8)%Q.
Proof.
  intros csqrt H. exists (fun a => match a with 0 => (5, 0)%Q | 1 => (0, 3)%Q | _ => (0, 0)%Q end). split; [reflexivity|]. split; [reflexivity|].
  unfold direct, np_sum. cbn [seq fold_left Nat.mul Nat.add]. unfold put. cbn [Nat.eqb Nat.div Nat.divmod fst Nat.mul Nat.add].
  replace (csqrt _) with (4, 0)%Q by (symmetry; exact H). vm_compute. reflexivity.
Qed.
Print Assumptions C67_unit.
Print Assumptions C67_others.
Print Assumptions C67_in_place.
Print Assumptions C67_idempotent.
Print Assumptions C67_scale.
Print Assumptions C67_complex_refuted.
