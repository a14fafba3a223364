(** C71: an eigendecomposition is a symmetric operator with the given eigenvectors and eigenvalues. *)
From Coq Require Import List Arith String Lia QArith Qcanon.
From Verif Require Import Base Algebra Ofield EigModel EigSpec EigProofs.
Import ListNotations.
Close Scope Qc_scope. Close Scope Q_scope.
Local Open Scope cr_scope.

(** With orthonormal eigenvectors, the operator multiplies each of them by its eigenvalue, and sends the vectors orthogonal to all of them to zero. *)
Theorem C71_eigenvectors (K : ofield) n k (v : nat -> nat -> K) w : orthonormal n k v ->
  (forall l i, (l < k)%nat -> direct n k v w (fun i => v i l) i = w l * v i l) /\
  (forall x i, (forall l, (l < k)%nat -> dot n (fun i => v i l) x = 0) -> direct n k v w x i = 0).
Proof. intros O. split; [intros l i L; apply direct_eigen; assumption|intros x i; apply direct_orthogonal]. Qed.
Example C71_eigenvectors_case : orthonormal (K := Qf) 2 2 rotation /\ complete (K := Qf) 2 2 rotation /\ this (direct (K := Qf) 2 2 rotation (values 5 10) (fun i => q 1 1) 0) = (29 # 5)%Q.
Proof. split; [apply rotation_orthonormal|split; [apply rotation_complete|vm_compute; reflexivity]]. Qed.

(** It is symmetric, whatever the vectors. *)
Theorem C71_symmetric (K : ofield) n k (v : nat -> nat -> K) w x y : dot n y (direct n k v w x) = dot n (direct n k v w y) x.
Proof. apply direct_symmetric. Qed.
Example C71_symmetric_case : this (dot (K := Qf) 2 (fun i => q 1 1) (direct (K := Qf) 2 2 rotation (values 5 10) (basis 0))) = (29 # 5)%Q.
Proof. vm_compute. reflexivity. Qed.

(** The trace is the trace of the operator. *)
Theorem C71_trace (K : ofield) n k (v : nat -> nat -> K) w : orthonormal n k v -> trace_of n (direct n k v w) = trace k w.
Proof. apply trace_direct. Qed.
Example C71_trace_case : this (trace (K := Qf) 2 (values 5 10)) = 15%Q /\ this (trace_of (K := Qf) 2 (direct (K := Qf) 2 2 rotation (values 5 10))) = 15%Q.
Proof. split; vm_compute; reflexivity. Qed.

(** For a complete decomposition, det is zero exactly when the operator sends a vector that is not zero to zero. *)
Theorem C71_det_partial (K : ofield) n k (v : nat -> nat -> K) w : (1 : K) <> 0 -> orthonormal n k v -> complete n k v -> det k w = 0 <-> singular n (direct n k v w).
Proof. apply det_singular. Qed.
Example C71_det_case : this (det (K := Qf) 2 (values 5 10)) = 50%Q /\ (1 : Qf) <> 0.
Proof. split; [vm_compute; reflexivity|]. intros E. apply (f_equal this) in E. discriminate E. Qed.

(** Bounds of the eigenvalues are bounds of x.(A x) relatively to x.x: a decomposition with positive eigenvalues is a positive operator. *)
Theorem C71_bounds (K : ofield) n k (v : nat -> nat -> K) w x (lo hi : K) : orthonormal n k v -> complete n k v -> (forall l, (l < k)%nat -> le lo (w l) /\ le (w l) hi) ->
  le (lo * dot n x x) (dot n x (direct n k v w x)) /\ le (dot n x (direct n k v w x)) (hi * dot n x x).
Proof. apply quadratic_bounds. Qed.
Example C71_bounds_case : forall l, (l < 2)%nat -> le (q 5 1) (values 5 10 l) /\ le (values 5 10 l) (q 10 1).
Proof. intros [|[|l]] L; [split; vm_compute; reflexivity|split; vm_compute; reflexivity|lia]. Qed.

(** For eigenvalues that are not negative and not all zero, cond is the condition number. *)
Theorem C71_cond_partial (K : ofield) k (w : nat -> K) : (forall l, (l < k)%nat -> le 0 (w l)) -> (exists l, (l < k)%nat /\ w l <> 0) -> exists c, cond k w = Ok c /\ condition_number k w c.
Proof. apply cond_nonneg. Qed.
Example C71_cond_case : cond (K := Qf) 2 (values 5 10) = Ok (q 2 1) /\ cond (K := Qf) 2 (values 0 10) = Ok (q 1 1).
Proof. split; vm_compute; f_equal; apply Qc_ext; reflexivity. Qed.

(** Finding: cond (linear.py 1942-1943) divides the largest by the smallest eigenvalue instead of their absolute values: for the eigenvalues 1 and -2 it gives -1/2
    instead of 2, for -1 and -2, 1/2.  It raises when all the eigenvalues are zero. *)
Theorem C71_cond_refuted : cond (K := Qf) 2 (values 1 (-2)) = Ok (q (-1) 2) /\ ~ condition_number (K := Qf) 2 (values 1 (-2)) (q (-1) 2) /\
  cond (K := Qf) 2 (values (-1) (-2)) = Ok (q 1 2) /\ cond (K := Qf) 2 (values 0 0) = Raise ValueError.
Proof.
  split; [vm_compute; f_equal; apply Qc_ext; reflexivity|]. split; [|split; [vm_compute; f_equal; apply Qc_ext; reflexivity|reflexivity]].
  intros ([|[|a]] & [|[|b]] & A & B & _ & _ & _ & E); try lia; apply (f_equal this) in E; vm_compute in E; discriminate E.
Qed.

(** Finding: the keywords of EigendecompositionOperator are documented as passed to eigsh, but they are also given to Operator.__init__ (linear.py 1896 and 1902), and no
    keyword is a parameter of both: EigendecompositionOperator(A, k=3) or with any other keyword raises TypeError, after the decomposition has been computed. *)
Theorem C71_keywords_refuted (keywords : list string) : init false keywords = Ok tt <-> keywords = [].
Proof.
  split; [|intros ->; reflexivity]. destruct keywords as [|n l]; [reflexivity|]. unfold init, call. intros H. exfalso. cbn [forallb] in H.
  destruct (among eigsh_keywords n && negb (among ["return_eigenvectors"%string] n))%bool eqn:A; [|discriminate H].
  destruct (among operator_keywords n) eqn:B; [|cbn [andb] in H; destruct (forallb _ l); discriminate H].
  apply andb_prop in A. destruct A as [A _]. unfold among in A, B. apply existsb_exists in A. destruct A as (m & I & E). apply String.eqb_eq in E. subst m.
  cbn [eigsh_keywords In] in I. repeat (destruct I as [<-|I]; [discriminate B|]). destruct I.
Qed.

(** Finding: SymmetricBandOperator.eigen(eigvals_only=True) (linear.py 1674) unpacks the array of the eigenvalues into w and v: it raises ValueError unless there are two,
    and then the second one is taken for the eigenvectors. *)
Theorem C71_eigvals_only_refuted n : eigen n false = Ok Spectral /\ (n <> 2 -> eigen n true = Raise ValueError)%nat /\ eigen 2 true = Ok Scalars.
Proof. split; [reflexivity|]. split; [|reflexivity]. intros N. unfold eigen. apply Nat.eqb_neq in N. rewrite N. reflexivity. Qed.

(** Finding: SymmetricBandOperator.cholesky (linear.py 1697-1700) gives two positional arguments to LowerTriangularOperator and UpperTriangularOperator, which take one:
    it raises TypeError for every positive definite operator. *)
Theorem C71_cholesky_refuted lower : cholesky lower true = Raise TypeError.
Proof. reflexivity. Qed.

Print Assumptions C71_det_partial.
Print Assumptions C71_bounds.
Print Assumptions C71_cond_partial.
