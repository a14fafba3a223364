(** C25: symmetric band Toeplitz operators. *)
From Verif Require Import Base Algebra Dft DftExamples DftComplex ToepModel ToepSpec ToepProofs.
Local Open Scope nat_scope.

(** The operator multiplies each row of the input by the Toeplitz matrix of its first row, for every number of samples and
    every bandwidth, even larger than the number of samples, and whatever was in the buffers. *)
Theorem C25_toeplitz : forall (K : cfield) (w : nat -> K) pool ns (rows xs outs : list (list K)) op p,
  root (fftsize ns (p - 1)) (w (fftsize ns (p - 1))) -> (forall n, length (pool n) = n) ->
  0 < ns -> Forall (fun f => length f = p /\ Forall is_real f) rows -> Forall (fun x => length x = ns /\ Forall is_real x) xs ->
  length rows = 1 \/ length rows = length xs -> length outs = length xs -> make w pool ns rows = Ok op ->
  length (direct w op true xs outs) = length xs /\
  forall i, i < length xs -> product ns (toeplitz (row_of rows i)) (nth i xs []) (nth i (direct w op true xs outs) []).
Proof. intros K. apply toeplitz_ok. Qed.
(** It can always be made. *)
Theorem C25_make : forall (K : cfield) (w : nat -> K) pool ns (rows : list (list K)) p, (forall n, length (pool n) = n) -> 0 < ns -> 0 < p -> rows <> [] ->
  Forall (fun f => length f = p) rows -> exists op, make w pool ns rows = Ok op.
Proof. intros K. apply make_total. Qed.
(** The transforms are large enough, and their size is a power of two. *)
Theorem C25_fftsize : forall ns nc, ns + nc <= fftsize ns nc /\ exists k, fftsize ns nc = 2 ^ k.
Proof. intros ns nc. split; [apply fftsize_ge|]. destruct (double_pow (ns + nc) 2 (ns + nc)) as [k E]. exists (S k). unfold fftsize. rewrite E. cbn. lia. Qed.
(** With complex numbers, the hypothesis about the roots of unity holds (this uses the axioms of the real numbers). *)
Theorem C25_complex : forall pool ns (rows xs outs : list (list Cf)) p, (forall n, length (pool n) = n) -> 0 < ns -> 0 < p -> rows <> [] ->
  Forall (fun f => length f = p /\ Forall is_real f) rows -> Forall (fun x => length x = ns /\ Forall is_real x) xs ->
  length rows = 1 \/ length rows = length xs -> length outs = length xs ->
  exists op, make cw pool ns rows = Ok op /\
  forall i, i < length xs -> product ns (toeplitz (row_of rows i)) (nth i xs []) (nth i (direct cw op true xs outs) []).
Proof.
  intros pool ns rows xs outs p P Hs Hp NE Fr Fx Lr Lo. destruct (make_total cw pool ns rows p) as [op E]; auto.
  { eapply Forall_impl; [|exact Fr]. cbn. tauto. }
  exists op. split; auto. refine (proj2 (toeplitz_ok cw pool ns rows xs outs op p _ P Hs Fr Fx Lr Lo E)). apply complex_root. pose proof (fftsize_ge ns (p - 1)). lia.
Qed.

(** A band wider than the matrix: [[3, 2], [2, 3]], where 1 is not used; transforms of size 4. *)
Definition junk (n : nat) : list GQf := map (fun i => gint (Z.of_nat i + 7)) (seq 0 n).
Example C25_example : fftsize 2 2 = 4 /\ root (fftsize 2 2) gi /\
  exists op, make (fun _ => gi) junk 2 [map gint [3; 2; 1]%Z] = Ok op /\
  direct (fun _ => gi) op true [map gint [1; 10]%Z; map gint [0; 1]%Z] [[]; []] = [map gint [23; 32]%Z; map gint [2; 3]%Z] /\
  exists op2, make (fun _ => gi) junk 3 [map gint [3; 2]%Z; map gint [1; 5]%Z] = Ok op2 /\
  direct (fun _ => gi) op2 true [map gint [1; 10; 100]%Z; map gint [1; 10; 100]%Z] [[]; []] = [map gint [23; 232; 320]%Z; map gint [51; 515; 150]%Z].
Proof.
  split; [reflexivity|]. split; [apply GQ_root4|]. eexists. split; [reflexivity|]. split; [apply gq_rows; vm_compute; reflexivity|]. eexists. split; [reflexivity|]. apply gq_rows; vm_compute; reflexivity.
Qed.

(** Finding: with as many first rows as in the last axis but one (two, for an input of shape (2, 2, 3)), there is no
    exception, and the last rows of the output are not computed. *)
Theorem C25_rows_refuted : exists (rows xs : list (list GQf)) op, length xs = 4 /\ Forall (fun x => length x = 3) xs /\ make (fun _ => gi) junk 3 rows = Ok op /\
  forall outs, length outs = 4 -> nth 2 (direct (fun _ => gi) op true xs outs) [] = nth 2 outs [] /\ nth 3 (direct (fun _ => gi) op true xs outs) [] = nth 3 outs [].
Proof.
  exists [map gint [3; 2]%Z; map gint [1; 5]%Z], (repeat (map gint [1; 10; 100]%Z) 4). eexists. split; [reflexivity|]. split; [repeat constructor|]. split; [reflexivity|].
  intros [|a [|b [|c [|d [|]]]]] L; try discriminate. split; reflexivity.
Qed.
(** Finding: if the output cannot be reshaped without a copy, it is left as it was. *)
Theorem C25_copy_refuted : forall (K : cfield) (w : nat -> K) ns nc n kernel (xs outs : list (list K)), direct w (Toep ns nc n kernel) false xs outs = outs.
Proof. reflexivity. Qed.
(** Finding: with no sample, the operator cannot always be made. *)
Theorem C25_empty_refuted : exists rows : list (list GQf), make (fun _ => gi) junk 0 rows = Raise ValueError.
Proof. exists [map gint [3; 2; 1]%Z]. reflexivity. Qed.

Print Assumptions C25_toeplitz.
Print Assumptions C25_make.
Print Assumptions C25_fftsize.
Print Assumptions C25_complex.
Print Assumptions C25_rows_refuted.
Print Assumptions C25_copy_refuted.
Print Assumptions C25_empty_refuted.
