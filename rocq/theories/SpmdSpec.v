(** Independent vocabulary for C45. *)
From Verif Require Import Base Algebra Ofield CgModel SpmdModel.
Local Open Scope nat_scope.

Section Spec.
Context {K : cring} {R : Type}.
(** All processes *)
Definition world (P : nat) : comm := Comm [] (seq 0 P).
Definition self (i : nat) : comm := Comm [1; i] [i].
(** For every schedule: there is always a next step until all programs have ended with the results [rs]; all schedules have the same number of steps. *)
Definition completes (ps : list (prog K R)) (rs : list R) : Prop :=
  exists steps, forall s ps', run ps s = Some ps' -> exists s', run ps' s' = Some (map Ret rs) /\ length s + length s' = steps.
(** Some processes wait for ever. *)
Definition deadlock (ps : list (prog K R)) : Prop := (exists p, In p ps /\ forall r, p <> Ret r) /\ forall c, fire c ps = None.
(** A function that several processes call together: from any configuration in which the processes [ms] are at the calls [p], they can get to their continuations, with the results [r]; the others
    do not move. *)
Definition yields {A} (ms : list nat) (p : nat -> (A -> prog K R) -> prog K R) (r : nat -> A) : Prop :=
  forall k cfg, (forall m, In m ms -> nth_error cfg m = Some (p m (k m))) ->
  exists s cfg', run cfg s = Some cfg' /\ (forall m, In m ms -> nth_error cfg' m = Some (k m (r m))) /\ (forall m, ~ In m ms -> nth_error cfg' m = nth_error cfg m) /\ length cfg' = length cfg.
(** The processes of a communicator that satisfy a condition, or do not *)
Definition group (c : comm) (condition : nat -> bool) (b : bool) : comm := Comm (c_id c ++ [if b then 1 else 0]) (filter (fun m => Bool.eqb (condition m) b) (c_members c)).
End Spec.

Section Layout.
Context {K : ofield}.
Local Open Scope cr_scope.
(** How the elements of an array are distributed to the processes: the first element and the number of elements of each *)
Definition layout := nat -> nat * nat.
Definition part (l : layout) (i : nat) (v : nat -> K) : list K := map v (seq (fst (l i)) (snd (l i))).
(** One after the other, or all elements in each process *)
Definition offset (sizes : nat -> nat) (i : nat) : nat := fold_right (fun j n => (sizes j + n)%nat) 0%nat (seq 0 i).
Definition distributed (sizes : nat -> nat) : layout := fun i => (offset sizes i, sizes i).
Definition replicated (n : nat) : layout := fun _ => (0%nat, n).
(** The attributes of the algorithm in the process i *)
Definition local_state (l : layout) (i : nat) (s : state K) : lstate K := LSt (part l i (s_x s)) (part l i (s_r s)) (part l i (s_d s)) (s_delta s) (s_error2 s) (s_niter s).
Definition local_answer (l : layout) (i : nat) (a : answer K) : lanswer K :=
  match a with Success s => LSuccess (local_state l i s) | Failure s => LFailure (local_state l i s) | Garbage => LGarbage end.
(** Matrices that a process has *)
Definition matvec (m n : nat) (H : nat -> nat -> K) (x : list K) : list K := map (fun i => sum n (fun j => H i j * nth j x 0)) (seq 0 m).
Definition transposed (H : nat -> nat -> K) : nat -> nat -> K := fun i j => H j i.
(** The matrix of the sum over the processes of H_r^T H_r *)
Definition normal_matrix (P : nat) (rows : nat -> nat) (H : nat -> nat -> nat -> K) : nat -> nat -> K := fun i j => sum P (fun r => sum (rows r) (fun k => H r k i * H r k j)).
(** The operator D.T * H.T * H * D, where D is the MPIDistributionIdentityOperator and H the local matrix *)
Definition normal {R} (P n : nat) (rows : nat -> nat) (H : nat -> nat -> nat -> K) (r : nat) (x : list K) (k : list K -> prog K R) : prog K R :=
  identity_transpose (world P) (matvec n (rows r) (transposed (H r)) (matvec (rows r) n (H r) x)) k.
End Layout.
