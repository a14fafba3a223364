(** C26: rotations. *)
From Coq Require Import Reals.
From Verif Require Import Base Algebra RotModel RotSpec RotProofs.
Local Open Scope nat_scope.

(** A convention is accepted if it is a documented one, in lower or upper case. *)
Theorem C26_conventions : forall (K : cring) (A : Type) (cs : A -> K * K) conv a1 a2 a3,
  (exists m, make3 cs conv a1 a2 a3 = Ok m) <-> exists l, convention l /\ (map upper conv = intrinsic l \/ map upper conv = extrinsic l).
Proof.
  intros K A cs conv a1 a2 a3. split; [intros [m E]; apply make3_only in E; exact E|]. intros (l & C & [E|E]).
  - rewrite (make3_intrinsic cs conv l) by assumption. destruct (matrix3_total l (cs a1) (cs a2) (cs a3) C) as (m & F & _). eauto.
  - destruct l as [|a [|b [|c [|]]]]; cbn in E; try contradiction.
    + rewrite (make3_intrinsic cs conv [a]) by assumption. destruct (matrix3_total [a] (cs a1) (cs a2) (cs a3) C) as (m & F & _). eauto.
    + rewrite (make3_extrinsic2 cs conv a b) by assumption. destruct (matrix3_total [b; a] (cs a2) (cs a1) (cs a3)) as (m & F & _); [apply (convention_rev [a; b]), C|eauto].
    + rewrite (make3_extrinsic3 cs conv a b c) by assumption. destruct (matrix3_total [c; b; a] (cs a3) (cs a2) (cs a1)) as (m & F & _); [apply (convention_rev [a; b; c]), C|eauto].
Qed.
(** About moving axes, the matrix is the product of the elementary rotations in the order of the axes. *)
Theorem C26_intrinsic : forall (K : cring) (A : Type) (cs : A -> K * K) l conv a1 a2 a3 m, convention l -> map upper conv = intrinsic l ->
  make3 cs conv a1 a2 a3 = Ok m -> length m = 9 /\ mat_eq 3 (of_list m) (rotations (combine l [cs a1; cs a2; cs a3])).
Proof.
  intros K A cs l conv a1 a2 a3 m C U E. rewrite (make3_intrinsic cs conv l) in E by assumption. split; [|eapply matrix3_ok; eassumption].
  destruct (matrix3_total l (cs a1) (cs a2) (cs a3) C) as (m' & F & L). rewrite E in F. injection F as ->. exact L.
Qed.
(** About fixed axes, it is the product in the reverse order: the rotation about the first axis is applied first. *)
Theorem C26_extrinsic : forall (K : cring) (A : Type) (cs : A -> K * K) l conv a1 a2 a3 m, convention l -> map upper conv = extrinsic l ->
  make3 cs conv a1 a2 a3 = Ok m -> length m = 9 /\ mat_eq 3 (of_list m) (rotations (rev (combine l [cs a1; cs a2; cs a3]))).
Proof.
  intros K A cs l conv a1 a2 a3 m C U E. assert (forall l a1 a2 a3, convention l -> matrix3 (intrinsic l) a1 a2 a3 = Ok m -> length m = 9 /\ mat_eq 3 (of_list m) (rotations (combine l [a1; a2; a3]))) as D.
  { intros l' b1 b2 b3 C' E'. split; [|eapply matrix3_ok; eassumption]. destruct (matrix3_total l' b1 b2 b3 C') as (m' & F & L). rewrite E' in F. injection F as ->. exact L. }
  destruct l as [|a [|b [|c [|]]]]; cbn in U; try contradiction.
  - rewrite (make3_intrinsic cs conv [a]) in E by assumption. apply (D [a] (cs a1) (cs a2) (cs a3) C E).
  - rewrite (make3_extrinsic2 cs conv a b) in E by assumption. apply (D [b; a] (cs a2) (cs a1) (cs a3) (convention_rev [a; b] C) E).
  - rewrite (make3_extrinsic3 cs conv a b c) in E by assumption. apply (D [c; b; a] (cs a3) (cs a2) (cs a1) (convention_rev [a; b; c] C) E).
Qed.
(** The matrix is orthogonal, as flagged, and its determinant is one. *)
Theorem C26_orthogonal : forall (K : cring) (A : Type) (cs : A -> K * K) conv a1 a2 a3 m, (forall a, on_circle (cs a)) ->
  make3 cs conv a1 a2 a3 = Ok m -> orthogonal 3 (of_list m) /\ det3 (of_list m) = r1.
Proof.
  intros K A cs conv a1 a2 a3 m U E. assert (forall l b1 b2 b3, Forall (fun p => on_circle (snd p)) (combine (l : list ax3) [cs b1; cs b2; cs b3])) as F.
  { intros l b1 b2 b3. apply Forall_forall. intros [a p] H. apply in_combine_r in H. cbn in *. intuition subst; apply U. }
  assert (exists l, mat_eq 3 (of_list m) (rotations l) /\ Forall (fun p => on_circle (snd p)) l) as (l & M & G).
  { destruct (make3_only cs conv a1 a2 a3 m E) as (l & C & [S|S]).
    - eexists. split; [eapply C26_intrinsic; eassumption|]. apply F.
    - eexists. split; [eapply C26_extrinsic; eassumption|]. apply Forall_rev, F. }
  split.
  - eapply orthogonal_ext; [apply mat_sym, M|]. apply rotations_orthogonal, G.
  - rewrite (det3_ext _ _ M). apply rotations_det, G.
Qed.
(** The plane rotations: element k of an array of angles is the k-th matrix, whatever the number of dimensions. *)
Theorem C26_rotation2d : forall (K : cring) (cs : list nat -> K * K) k, 
  let m := fun i j => rotation2d cs (length k) (k ++ [i; j]) in
  (forall i j, i < 2 -> j < 2 -> m i j = elementary Z (cs k) i j) /\ (on_circle (cs k) -> orthogonal 2 m).
Proof.
  intros K cs k m. assert (forall i j, i < 2 -> j < 2 -> m i j = elementary Z (cs k) i j) as E.
  { intros i j Hi Hj. unfold m, rotation2d. rewrite rollaxis_iter. unfold rot2, elementary. cbn [app]. destruct (cs k) as [c s].
    destruct i as [|[|]]; [| |lia]; destruct j as [|[|]]; try lia; reflexivity. }
  split; [exact E|]. intros U. destruct (elementary_orthogonal Z (fst (cs k)) (snd (cs k)) U) as [O1 O2]. rewrite <- surjective_pairing in O1, O2.
  pose proof (rth K) as R. split; intros i j Hi Hj; unfold mul, transpose; cbn [sum]; rewrite !E by lia.
  - specialize (O1 i j ltac:(lia) ltac:(lia)). rewrite <- O1. apply plane_rows; assumption.
  - specialize (O2 i j ltac:(lia) ltac:(lia)). rewrite <- O2. apply plane_columns; assumption.
Qed.
(** The real numbers, with the axioms of the standard library. *)
Definition Rring : cring := {| car := R; r0 := 0%R; r1 := 1%R; radd := Rplus; rmul := Rmult; rsub := Rminus; ropp := Ropp; rth := RTheory |}.
(** With real numbers and the cosine and sine of any real angles, the conditions are met. *)
Theorem C26_real : forall conv (a1 a2 a3 : R) (m : list Rring), make3 (fun a => (cos a, sin a) : Rring * Rring) conv a1 a2 a3 = Ok m ->
  orthogonal 3 (of_list m) /\ det3 (of_list m) = 1%R.
Proof. intros conv a1 a2 a3 m. apply (C26_orthogonal Rring R (fun a => (cos a, sin a) : Rring * Rring)). intros a. unfold on_circle. cbn. pose proof (sin2_cos2 a) as E. unfold Rsqr in E. rewrite Rplus_comm. exact E. Qed.

(** Examples: an angle of 90 degrees, over the integers. *)
Definition quarter (turns : nat) : Zring * Zring := match turns with 1 => (0%Z, 1%Z) | 2 => ((-1)%Z, 0%Z) | 3 => (0%Z, (-1)%Z) | _ => (1%Z, 0%Z) end.
(** The case of the letters is ignored. *)
Theorem C26_case : forall (K : cring) (A : Type) (cs : A -> K * K) conv conv' a1 a2 a3, Forall2 same_letter conv conv' -> make3 cs conv a1 a2 a3 = make3 cs conv' a1 a2 a3.
Proof.
  intros K A cs conv conv' a1 a2 a3 F. assert (map upper conv = map upper conv') as E; [|unfold make3; rewrite E; reflexivity].
  induction F as [|l l' conv conv' [->|(a & [[-> ->]|[-> ->]])] F IH]; cbn [map upper]; [reflexivity| | |]; rewrite IH; reflexivity.
Qed.
Print Assumptions C26_case.
Example C26_case_case : Forall2 same_letter [Axis X; Lower Y; Axis Z] [Axis X; Axis Y; Axis Z].
Proof. constructor; [left; reflexivity|]. constructor; [right; exists Y; left; split; reflexivity|]. constructor; [left; reflexivity|constructor]. Qed.
Example extrinsic_xyz : make3 quarter [Axis X; Lower Y; Axis Z] 1 0 1 = Ok ([0; 0; 1; 1; 0; 0; 0; 1; 0]%Z : list Zring).
Proof. reflexivity. Qed.
Example intrinsic_xyz : make3 quarter [Axis X; Axis Y; Prime; Axis Z; Prime; Prime] 1 0 1 = Ok ([0; -1; 0; 0; 0; -1; 1; 0; 0]%Z : list Zring).
Proof. reflexivity. Qed.
Example repeated_axis : make3 quarter [Axis X; Axis X] 1 0 1 = Raise ValueError. Proof. reflexivity. Qed.
Example on_circle_quarter : forall n, on_circle (quarter n). Proof. intros [|[|[|[|]]]]; reflexivity. Qed.
Example plane : map (fun ij => rotation2d (fun k => quarter (list_sum k)) 2 ([1; 0] ++ ij)) [[0; 0]; [0; 1]; [1; 0]; [1; 1]] = ([0; -1; 1; 0]%Z : list Zring).
Proof. reflexivity. Qed.

Print Assumptions C26_conventions. Print Assumptions C26_intrinsic. Print Assumptions C26_extrinsic. Print Assumptions C26_orthogonal. Print Assumptions C26_rotation2d. Print Assumptions C26_real.
